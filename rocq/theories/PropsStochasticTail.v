(** PropsStochasticTail.v -- C77 and C78, how often: the share of the combinations of generator outputs for which a stochastic reduction is far off. *)
From Coq Require Import ZArith List Lia Bool Arith ZifyBool ZifyNat Reals Lra.
From Flocq Require Import Core Binary Bits.
From Verif Require Import Base Floats Simd Dtypes Spec ApiSpec QuantKernels DequantKernels ExecFacts FloatFacts QuantFacts Context ContextFacts Api PropsQuantize
  PropsMemory FloatFacts2 PropsDequantize PropsRoundTrip RoundTripFacts PropsStochastic Rng PropsRng PropsVariance PropsAccumulate PropsIndependent PropsStochasticReduce PropsStochasticRing.
Import ListNotations.
Local Open Scope R_scope.

(** the share of the (2^64)^n combinations of outputs for which [far] holds *)
Definition share (n : nat) (far : list Z -> bool) : R := mean_over_all n (fun us => if far us then 1 else 0).

Lemma share_far n f d : 0 < d -> share n (fun us => Rle_bool d (Rabs (f us))) <= mean_over_all n (fun us => f us ^ 2) / d ^ 2.
Proof.
  intros Hd. assert (D2 : 0 < d ^ 2) by (apply pow_lt; exact Hd). unfold share, Rdiv.
  apply Rle_trans with (mean_over_all n (fun us => / d ^ 2 * f us ^ 2 + 0 * (fun _ : list Z => 0) us)).
  - apply all_le. intros us _. destruct (Rle_bool_spec d (Rabs (f us))) as [L|L].
    + assert (d ^ 2 <= f us ^ 2) by (rewrite <- (pow2_abs (f us)); apply pow_incr; lra).
      assert (/ d ^ 2 * d ^ 2 <= / d ^ 2 * f us ^ 2) by (apply Rmult_le_compat_l; [left; apply Rinv_0_lt_compat; exact D2|assumption]).
      rewrite Rinv_l in * by lra. lra.
    + assert (0 <= / d ^ 2 * f us ^ 2) by (apply Rmult_le_pos; [left; apply Rinv_0_lt_compat; exact D2|apply pow2_ge_0]). lra.
  - rewrite (all_lin n (fun us => f us ^ 2) (fun _ => 0)). rewrite Rmult_0_l, Rplus_0_r. right. ring.
Qed.

(** The average of n messages with steps at most S is at least d off its mean for at most S^2/(4 n d^2) of all combinations. *)
Theorem C77_rarely_far draw i ss S d : a_draw draw -> Forall (sender_ok draw i) ss -> Forall (fun s => Rabs (val (s_scale s)) <= S) ss -> ss <> [] -> 0 < d ->
  let n := length ss in
  let average us := total i ss us / INR n in
  share n (fun us => Rle_bool d (Rabs (average us - mean_over_all n average))) <= S ^ 2 / (4 * INR n * d ^ 2).
Proof.
  intros HD HS HL NE Hd n average. destruct (C77_average draw i ss S HD HS HL NE) as [_ V]. fold n in V. fold average in V.
  assert (D2 : 0 < d ^ 2) by (apply pow_lt; exact Hd).
  assert (Pn : 0 < INR n) by (apply lt_0_INR; unfold n; destruct ss; [congruence|cbn; lia]).
  eapply Rle_trans; [apply (share_far n (fun us => average us - mean_over_all n average) d Hd)|].
  replace (S ^ 2 / (4 * INR n * d ^ 2)) with ((S ^ 2 / (4 * INR n)) / d ^ 2) by (field; lra).
  apply Rmult_le_compat_r; [left; apply Rinv_0_lt_compat; exact D2|]. exact V.
Qed.

(** The same for the ring of C78 with respect to the exact sum. *)
Theorem C78_rarely_far draw i B S x0 hops final d :
  a_draw draw -> 0 <= S <= B -> B <= bpow radix2 124 -> ring_run draw i B hops x0 final -> Forall (fun h => snd h <= S) hops -> 0 < d ->
  let m := length hops in
  let truth := value i x0 + rsum (fun h => value i (fst h)) hops in
  share m (fun us => Rle_bool d (Rabs (value i (final us) - truth)))
    <= (/ 4 * rsum (fun h => snd h ^ 2) hops + INR m ^ 2 * (B * bpow radix2 (-18) * (S + B * bpow radix2 (-19)))) / d ^ 2.
Proof.
  intros HD HS HB HR HH Hd m truth. destruct (C78_stochastic_ring draw i B S x0 hops final HD HS HB HR HH) as [_ V]. fold m truth in V.
  assert (D2 : 0 < d ^ 2) by (apply pow_lt; exact Hd).
  eapply Rle_trans; [apply (share_far m (fun us => value i (final us) - truth) d Hd)|].
  apply Rmult_le_compat_r; [left; apply Rinv_0_lt_compat; exact D2|]. exact V.
Qed.

(** ** Exponentially rare.  The moment generating function of one message. *)
Lemma exp_small x : Rabs x <= / 4 -> exp x <= 1 + x + x ^ 2.
Proof.
  intros H. apply Rabs_le_inv in H. pose proof (exp_ineq1_le (- (x / 2))) as E. set (g := exp (- (x / 2))) in *.
  assert (G : exp x * (g * g) = 1) by (unfold g; rewrite <- !exp_plus; replace (x + (- (x / 2) + - (x / 2))) with 0 by field; apply exp_0).
  pose proof (exp_pos x) as P. set (h := 1 - x / 2). assert (h0 : 0 < h) by (unfold h; lra).
  assert (GH : h * h <= g * g) by (apply Rmult_le_compat; unfold h in *; lra).
  assert (A : exp x * (h * h) <= 1) by (rewrite <- G; apply Rmult_le_compat_l; lra).
  assert (B : 1 <= (1 + x + x ^ 2) * (h * h)).
  { unfold h. replace ((1 + x + x ^ 2) * ((1 - x / 2) * (1 - x / 2))) with (1 + x ^ 2 * (/ 4 - 3 * x / 4 + x ^ 2 / 4)) by field.
    assert (0 <= x ^ 2 * (/ 4 - 3 * x / 4 + x ^ 2 / 4)); [|lra]. pose proof (pow2_ge_0 x). apply Rmult_le_pos; [assumption|lra]. }
  apply (Rmult_le_reg_r (h * h)); [apply Rmult_lt_0_compat; assumption|lra].
Qed.
Lemma cosh_small x : Rabs x <= / 4 -> exp x + exp (- x) <= 2 * exp (x ^ 2).
Proof.
  intros H. pose proof (exp_small x H). pose proof (exp_small (- x) ltac:(rewrite Rabs_Ropp; exact H)). pose proof (exp_ineq1_le (x ^ 2)).
  replace ((- x) ^ 2) with (x ^ 2) in * by ring. lra.
Qed.
Lemma cosh_upto n : forall x, Rabs x <= 2 ^ n / 4 -> exp x + exp (- x) <= 2 * exp (x ^ 2).
Proof.
  induction n as [|n IH]; intros x H; [apply cosh_small; cbn [pow] in H; lra|].
  specialize (IH (x / 2)). unfold Rdiv in IH at 1. rewrite Rabs_mult, (Rabs_pos_eq (/ 2)) in IH by lra. cbn [pow] in H. specialize (IH ltac:(lra)).
  set (g := exp (x / 2)) in *. set (h := exp (- (x / 2))) in *. set (k := exp ((x / 2) ^ 2)) in *.
  assert (E1 : exp x = g * g) by (unfold g; rewrite <- exp_plus; f_equal; field).
  assert (E2 : exp (- x) = h * h) by (unfold h; rewrite <- exp_plus; f_equal; field).
  assert (E3 : g * h = 1) by (unfold g, h; rewrite <- exp_plus; replace (x / 2 + - (x / 2)) with 0 by field; apply exp_0).
  assert (E4 : exp (x ^ 2) = (k * k) * (k * k)) by (unfold k; rewrite <- !exp_plus; f_equal; field).
  pose proof (exp_pos (x / 2)) as P1. pose proof (exp_pos (- (x / 2))) as P2. fold g in P1. fold h in P2. rewrite E1, E2, E4.
  assert (Q : (g + h) * (g + h) <= (2 * k) * (2 * k)) by (apply Rmult_le_compat; lra).
  pose proof (pow2_ge_0 (k * k - 1)) as R. replace ((k * k - 1) ^ 2) with (k * k * (k * k) - 2 * (k * k) + 1) in R by ring.
  replace ((g + h) * (g + h)) with (g * g + h * h + 2 * (g * h)) in Q by ring. rewrite E3 in Q. lra.
Qed.
Lemma cosh_exp x : exp x + exp (- x) <= 2 * exp (x ^ 2).
Proof.
  assert (P : forall n, INR n <= 2 ^ n).
  { induction n as [|n IH]; [cbn; lra|]. rewrite S_INR. cbn [pow]. assert (1 <= 2 ^ n) by (apply pow_R1_Rle; lra). lra. }
  destruct (archimed (4 * Rabs x)) as [A _]. set (z := up (4 * Rabs x)) in *. pose proof (Rabs_pos x) as X0.
  assert (z0 : (0 <= z)%Z) by (apply le_IZR; lra).
  apply (cosh_upto (Z.to_nat z)). specialize (P (Z.to_nat z)). rewrite INR_IZR_INZ, Z2Nat.id in P by exact z0. lra.
Qed.
(** a centred two-valued variable: (1-q)*t with share q, -q*t otherwise *)
Lemma two_point q t : 0 <= q <= 1 -> q * exp (t * (1 - q)) + (1 - q) * exp (- (t * q)) <= exp (t ^ 2 / 2).
Proof.
  intros Hq. set (a := exp (t * (1 - q))). set (b := exp (- (t * q))). set (a' := exp (- (t * (1 - q)))). set (b' := exp (t * q)).
  pose proof (exp_pos (t * (1 - q))) as Pa. fold a in Pa. pose proof (exp_pos (- (t * q))) as Pb. fold b in Pb.
  assert (Ea : a * a' = 1) by (unfold a, a'; rewrite <- exp_plus, Rplus_opp_r; apply exp_0).
  assert (Eb : b * b' = 1) by (unfold b, b'; rewrite <- exp_plus, Rplus_opp_l; apply exp_0).
  assert (Et : a * b' = exp t) by (unfold a, b'; rewrite <- exp_plus; f_equal; ring).
  assert (Eu : a' * b = exp (- t)) by (unfold a', b; rewrite <- exp_plus; f_equal; ring).
  set (e := q * a + (1 - q) * b). set (e' := q * a' + (1 - q) * b').
  assert (e0 : 0 <= e) by (unfold e; apply Rplus_le_le_0_compat; apply Rmult_le_pos; lra).
  assert (e1 : 1 <= e').
  { pose proof (exp_ineq1_le (- (t * (1 - q)))) as I1. fold a' in I1. pose proof (exp_ineq1_le (t * q)) as I2. fold b' in I2.
    assert (J1 : q * (1 + - (t * (1 - q))) <= q * a') by (apply Rmult_le_compat_l; lra). assert (J2 : (1 - q) * (1 + t * q) <= (1 - q) * b') by (apply Rmult_le_compat_l; lra).
    unfold e'. replace 1 with (q * (1 + - (t * (1 - q))) + (1 - q) * (1 + t * q)) by ring. lra. }
  assert (EE : e * e' = q * q + (1 - q) * (1 - q) + q * (1 - q) * (exp t + exp (- t))).
  { rewrite <- Et, <- Eu. unfold e, e'. replace ((q * a + (1 - q) * b) * (q * a' + (1 - q) * b')) with (q * q * (a * a') + (1 - q) * (1 - q) * (b * b') + q * (1 - q) * (a * b' + a' * b)) by ring.
    rewrite Ea, Eb. ring. }
  pose proof (cosh_exp (t / 2)) as C. set (g := exp (t / 2)) in *. set (h := exp (- (t / 2))) in *. set (k := exp ((t / 2) ^ 2)) in *.
  assert (G1 : exp t = g * g) by (unfold g; rewrite <- exp_plus; f_equal; field).
  assert (G2 : exp (- t) = h * h) by (unfold h; rewrite <- exp_plus; f_equal; field).
  assert (G3 : g * h = 1) by (unfold g, h; rewrite <- exp_plus; replace (t / 2 + - (t / 2)) with 0 by field; apply exp_0).
  assert (G4 : exp (t ^ 2 / 2) = k * k) by (unfold k; rewrite <- exp_plus; f_equal; field).
  pose proof (exp_pos (t / 2)) as P1. pose proof (exp_pos (- (t / 2))) as P2. fold g in P1. fold h in P2.
  assert (Q : (g + h) * (g + h) <= (2 * k) * (2 * k)) by (apply Rmult_le_compat; lra).
  replace ((g + h) * (g + h)) with (g * g + h * h + 2 * (g * h)) in Q by ring. rewrite G3 in Q.
  assert (K1 : 1 <= k * k). { rewrite <- G4. pose proof (exp_ineq1_le (t ^ 2 / 2)). pose proof (pow2_ge_0 t). lra. }
  rewrite G1, G2 in EE. rewrite G4.
  assert (L : e <= e * e') by (rewrite <- (Rmult_1_r e) at 1; apply Rmult_le_compat_l; assumption).
  set (v := q * (1 - q)) in *. assert (v0 : 0 <= v) by (unfold v; apply Rmult_le_pos; lra).
  assert (v1 : 4 * v <= 1). { pose proof (pow2_ge_0 (2 * q - 1)) as R. replace ((2 * q - 1) ^ 2) with (1 - 4 * v) in R by (unfold v; ring). lra. }
  assert (W : v * (g * g + h * h) <= v * (4 * (k * k) - 2)) by (apply Rmult_le_compat_l; lra).
  assert (X : 4 * v * (k * k - 1) <= 1 * (k * k - 1)) by (apply Rmult_le_compat_r; lra).
  replace (q * q + (1 - q) * (1 - q)) with (1 - 2 * v) in EE by (unfold v; ring). lra.
Qed.
Lemma one_mgf draw i s l : a_draw draw -> sender_ok draw i s ->
  mean_over_outputs (fun u => exp (l * (sent i s u - mean1 i s))) <= exp (l ^ 2 * val (s_scale s) ^ 2 / 2).
Proof.
  intros HD (Hs & Hz & HI & HK & Hi & HR). pose proof (normal_good _ Hs) as Hg.
  destruct (share_unclipped _ _ _ _ _ _ _ _ _ _ _ i HD Hg Hz HI HK Hi HR) as (N & HN & HB & HC). fold (true_value i s) in HB, HC.
  set (y := scaled (val (s_scale s)) (true_value i s)) in *. set (w := val (s_scale s)) in *. set (q := IZR N / IZR (2 ^ 64)).
  assert (Q : 0 <= q <= 1).
  { assert (G : 0 < IZR (2 ^ 64)) by (apply IZR_lt; lia). split.
    - apply Rmult_le_pos; [apply IZR_le; lia|left; apply Rinv_0_lt_compat; auto].
    - apply (Rmult_le_reg_r (IZR (2 ^ 64))); auto. unfold q, Rdiv. rewrite Rmult_assoc, Rinv_l, Rmult_1_r, Rmult_1_l by lra. apply IZR_le. lia. }
  assert (M : mean1 i s = IZR (toward y) * w + q * (IZR (away y) * w - IZR (toward y) * w)).
  { unfold mean1. apply two_valued_mean; [exact HN|]. intros u Hu. unfold sent. rewrite (HC u Hu). fold w. destruct (u <? N)%Z; reflexivity. }
  set (t := l * ((IZR (away y) - IZR (toward y)) * w)).
  assert (T : t ^ 2 = l ^ 2 * w ^ 2).
  { assert (D : (IZR (away y) - IZR (toward y)) ^ 2 = 1).
    { unfold away, toward. destruct (Rlt_bool y 0); rewrite ?opp_IZR, plus_IZR; ring. }
    unfold t. replace ((l * ((IZR (away y) - IZR (toward y)) * w)) ^ 2) with (l ^ 2 * w ^ 2 * (IZR (away y) - IZR (toward y)) ^ 2) by ring. rewrite D. ring. }
  rewrite (two_valued_mean _ N (exp (t * (1 - q))) (exp (- (t * q)))); [|exact HN|].
  - fold q. rewrite <- T. pose proof (two_point q t Q) as P. lra.
  - intros u Hu. unfold sent. rewrite (HC u Hu), M. fold w. unfold t. destruct (u <? N)%Z; f_equal; ring.
Qed.

(** the sum of n messages *)
Definition squared_steps (ss : list sender) : R := rsum (fun s => val (s_scale s) ^ 2) ss.
Lemma all_mgf draw i l ss : a_draw draw -> Forall (sender_ok draw i) ss ->
  forall c, mean_over_all (length ss) (fun us => exp (l * (c + (total i ss us - rsum (mean1 i) ss)))) <= exp (l * c + l ^ 2 * squared_steps ss / 2).
Proof.
  intros HD HS. induction HS as [|s ss H HS IH]; intros c; cbn [length mean_over_all].
  - unfold total, squared_steps, rsum. cbn [combine fold_right]. right. f_equal. field.
  - unfold squared_steps in *. rewrite (rsum_cons (fun s => val (s_scale s) ^ 2)). set (v := rsum (fun s => val (s_scale s) ^ 2) ss) in *. pose proof (one_mgf draw i s l HD H) as O.
    set (k := exp (l * c + l ^ 2 * v / 2)).
    apply Rle_trans with (mean_over_outputs (fun u => k * (fun u => exp (l * (sent i s u - mean1 i s))) u + 0 * (fun _ : Z => 0) u)).
    + apply mean_le. intros u Hu. cbv beta. rewrite (all_ext _ _ (fun us => exp (l * ((c + (sent i s u - mean1 i s)) + (total i ss us - rsum (mean1 i) ss))))).
      2: { intros us. rewrite total_cons, rsum_cons. f_equal. ring. }
      eapply Rle_trans; [apply IH|]. right. unfold k. rewrite <- exp_plus, Rmult_0_l, Rplus_0_r. f_equal. ring.
    + rewrite (mean_lin (fun u => exp (l * (sent i s u - mean1 i s))) (fun _ => 0)), Rmult_0_l, Rplus_0_r.
      apply Rle_trans with (k * exp (l ^ 2 * val (s_scale s) ^ 2 / 2)); [apply Rmult_le_compat_l; [left; apply exp_pos|exact O]|].
      right. unfold k. rewrite <- exp_plus. f_equal. field.
Qed.
(** from exponential moments to shares *)
Lemma share_exp n f d v b : 0 < v -> 0 < d -> 0 <= b ->
  (forall l, mean_over_all n (fun us => exp (l * f us)) <= exp (Rabs l * b + l ^ 2 * v / 2)) ->
  share n (fun us => Rle_bool (d + b) (Rabs (f us))) <= 2 * exp (- (d ^ 2 / (2 * v))).
Proof.
  intros Hv Hd Hb H. set (l := d / v). assert (l0 : 0 < l) by (apply Rdiv_lt_0_compat; assumption).
  set (k := exp (- (l * (d + b)))). assert (k0 : 0 < k) by apply exp_pos.
  apply Rle_trans with (k * mean_over_all n (fun us => exp (l * f us)) + k * mean_over_all n (fun us => exp (- l * f us))).
  - rewrite <- (all_lin n (fun us => exp (l * f us)) (fun us => exp (- l * f us))). unfold share. apply all_le. intros us _.
    assert (E1 : k * exp (l * f us) = exp (l * (f us - (d + b)))) by (unfold k; rewrite <- exp_plus; f_equal; ring).
    assert (E2 : k * exp (- l * f us) = exp (l * (- f us - (d + b)))) by (unfold k; rewrite <- exp_plus; f_equal; ring).
    rewrite E1, E2. pose proof (exp_pos (l * (f us - (d + b)))) as P1. pose proof (exp_pos (l * (- f us - (d + b)))) as P2.
    destruct (Rle_bool_spec (d + b) (Rabs (f us))) as [L|L]; [|lra].
    assert (G : forall z, d + b <= z -> 1 <= exp (l * (z - (d + b)))).
    { intros z Hz. pose proof (exp_ineq1_le (l * (z - (d + b)))) as I. assert (0 <= l * (z - (d + b))) by (apply Rmult_le_pos; lra). lra. }
    destruct (Rle_or_lt 0 (f us)) as [N|N].
    + rewrite Rabs_pos_eq in L by exact N. specialize (G (f us) L). lra.
    + rewrite Rabs_left in L by exact N. specialize (G (- f us) L). lra.
  - pose proof (H l) as H1. pose proof (H (- l)) as H2. rewrite Rabs_Ropp, (Rabs_pos_eq l) in H2 by lra. rewrite (Rabs_pos_eq l) in H1 by lra.
    assert (E : k * exp (l * b + l ^ 2 * v / 2) = exp (- (d ^ 2 / (2 * v)))) by (unfold k; rewrite <- exp_plus; f_equal; unfold l; field; lra).
    replace ((- l) ^ 2) with (l ^ 2) in H2 by ring.
    assert (A1 : k * mean_over_all n (fun us => exp (l * f us)) <= k * exp (l * b + l ^ 2 * v / 2)) by (apply Rmult_le_compat_l; lra).
    assert (A2 : k * mean_over_all n (fun us => exp (- l * f us)) <= k * exp (l * b + l ^ 2 * v / 2)) by (apply Rmult_le_compat_l; lra). lra.
Qed.

Theorem C77_concentration draw i ss d : a_draw draw -> Forall (sender_ok draw i) ss -> ss <> [] -> 0 < d ->
  let n := length ss in
  let mean := mean_over_all n (total i ss) in
  share n (fun us => Rle_bool d (Rabs (total i ss us - mean))) <= 2 * exp (- (d ^ 2 / (2 * rsum (fun s => val (s_scale s) ^ 2) ss))).
Proof.
  intros HD HS NE Hd n mean.
  assert (E : mean = rsum (mean1 i) ss).
  { unfold mean, n. rewrite (all_ext _ _ (fun us => 0 + total i ss us)) by (intros; ring). rewrite mean_total. ring. }
  assert (Hv : 0 < squared_steps ss).
  { destruct HS as [|s ss H HS]; [congruence|]. unfold squared_steps. rewrite rsum_cons.
    assert (0 <= rsum (fun s => val (s_scale s) ^ 2) ss) by (apply rsum_ge0; intros; apply pow2_ge_0).
    assert (0 < val (s_scale s) ^ 2); [|lra]. rewrite <- pow2_abs. apply pow_lt. destruct H as ((_ & L & _) & _). pose proof (bpow_gt_0 radix2 (-126)). lra. }
  rewrite E. fold (squared_steps ss).
  pose proof (share_exp n (fun us => total i ss us - rsum (mean1 i) ss) d (squared_steps ss) 0 Hv Hd (Rle_refl 0)) as G. rewrite Rplus_0_r in G. apply G.
  intros l. pose proof (all_mgf draw i l ss HD HS 0) as M. rewrite (all_ext _ _ (fun us => exp (l * (total i ss us - rsum (mean1 i) ss)))) in M by (intros us; f_equal; ring).
  eapply Rle_trans; [exact M|]. right. f_equal. ring.
Qed.
Theorem C77_average_concentration draw i ss S d : a_draw draw -> Forall (sender_ok draw i) ss -> Forall (fun s => Rabs (val (s_scale s)) <= S) ss -> ss <> [] -> 0 < d ->
  let n := length ss in
  let average us := total i ss us / INR n in
  share n (fun us => Rle_bool d (Rabs (average us - mean_over_all n average))) <= 2 * exp (- (INR n * d ^ 2 / (2 * S ^ 2))).
Proof.
  intros HD HS HL NE Hd n average.
  assert (Pn : 0 < INR n) by (apply lt_0_INR; unfold n; destruct ss; [congruence|cbn; lia]).
  assert (S0 : 0 < S).
  { destruct HS as [|s ss H HS]; [congruence|]. inversion HL; subst. destruct H as ((_ & L & _) & _). pose proof (bpow_gt_0 radix2 (-126)). lra. }
  assert (E : mean_over_all n average = rsum (mean1 i) ss / INR n).
  { unfold average. rewrite (all_ext _ _ (fun us => / INR n * total i ss us + 0 * (fun _ : list Z => 0) us)) by (intros us; unfold Rdiv; ring).
    rewrite (all_lin n (total i ss) (fun _ => 0)). rewrite (all_ext n (total i ss) (fun us => 0 + total i ss us)) by (intros; ring). unfold n at 2. rewrite mean_total. unfold Rdiv. ring. }
  assert (V : squared_steps ss <= INR n * S ^ 2).
  { unfold n, squared_steps. clear -HL S0. induction HL as [|s ss H HL IH]; [unfold rsum; cbn; lra|]. cbn [length]. rewrite rsum_cons, S_INR.
    assert (val (s_scale s) ^ 2 <= S ^ 2) by (rewrite <- pow2_abs; apply pow_incr; split; [apply Rabs_pos|exact H]). lra. }
  assert (S2 : 0 < S ^ 2) by (apply pow_lt; exact S0).
  assert (Hv : 0 < S ^ 2 / INR n) by (apply Rdiv_lt_0_compat; assumption).
  rewrite E. pose proof (share_exp n (fun us => average us - rsum (mean1 i) ss / INR n) d (S ^ 2 / INR n) 0 Hv Hd (Rle_refl 0)) as G. rewrite Rplus_0_r in G.
  replace (INR n * d ^ 2 / (2 * S ^ 2)) with (d ^ 2 / (2 * (S ^ 2 / INR n))) by (field; lra). apply G.
  intros l. pose proof (all_mgf draw i (l / INR n) ss HD HS 0) as M.
  rewrite (all_ext _ _ (fun us => exp (l * (average us - rsum (mean1 i) ss / INR n)))) in M by (intros us; unfold average; f_equal; field; lra).
  eapply Rle_trans; [exact M|].
  assert (X : (l / INR n) ^ 2 * squared_steps ss <= (l / INR n) ^ 2 * (INR n * S ^ 2)) by (apply Rmult_le_compat_l; [apply pow2_ge_0|exact V]).
  replace ((l / INR n) ^ 2 * (INR n * S ^ 2)) with (l ^ 2 * (S ^ 2 / INR n)) in X by (field; lra).
  assert (MON : forall a b, a <= b -> exp a <= exp b) by (intros a b [L| ->]; [left; apply exp_increasing; exact L|right; reflexivity]).
  apply MON. lra.
Qed.

(** ** The ring *)
Lemma ring_mgf draw i B Sm hops b final l : a_draw draw -> 0 <= Sm <= B -> B <= bpow radix2 124 -> ring_run draw i B hops b final -> all_hops hops Sm ->
  let tau := B * bpow radix2 (-19) in
  forall t, mean_over_all (length hops) (fun us => exp (l * (value i (final us) - (t + own_sum i hops))))
    <= exp (l * (value i b - t) + Rabs l * (INR (length hops) * tau) + l ^ 2 * rsum (fun h => snd h ^ 2) hops / 2).
Proof.
  intros HD S0 HB HR. assert (MON : forall a b, a <= b -> exp a <= exp b) by (intros a c [L| ->]; [left; apply exp_increasing; exact L|right; reflexivity]).
  induction HR as [b final E|own S rest b s c next final E1 E2 HS HZ HW F BO BB HDl HC HA HST HRun IH]; intros HH tau t.
  - cbn [length mean_over_all]. rewrite E. unfold own_sum, rsum. cbn [length INR fold_right]. right. f_equal. field.
  - inversion HH as [|? ? SS HH']; subst. cbn [snd] in SS.
    destruct (one_sender draw i s HD HS) as [M1 _]. pose proof (one_mgf draw i s l HD HS) as O.
    assert (EV : true_value i s = value i (s_data s)) by (unfold true_value; rewrite E1; reflexivity). rewrite EV in M1.
    assert (NEAR : forall u, output64 u -> Rabs (sent i s u - value i (s_data s)) <= 2 * Rabs (val (s_scale s)) + Rabs (value i (s_data s)) * bpow radix2 (-22)).
    { intros u Hu. rewrite <- EV. apply (sent_near draw); auto. }
    assert (W2 : val (s_scale s) ^ 2 <= S ^ 2) by (rewrite <- pow2_abs; apply pow_incr; split; [apply Rabs_pos|exact HW]).
    set (x := value i (s_data s)) in *. set (o := own_sum i rest). set (q := rsum (fun h : mem * R => snd h ^ 2) rest).
    assert (EO : own_sum i ((own, S) :: rest) = value i own + o) by (unfold own_sum, o; rewrite rsum_cons; reflexivity).
    assert (EQ : rsum (fun h : mem * R => snd h ^ 2) ((own, S) :: rest) = S ^ 2 + q) by (unfold q; rewrite rsum_cons; reflexivity).
    assert (E20 : bpow radix2 (-19) = / 524288 /\ bpow radix2 (-20) = / 1048576 /\ bpow radix2 (-22) = / 4194304 /\ bpow radix2 (-23) = / 8388608) by (repeat split; cbn; lra).
    destruct E20 as (E19 & E20 & E22 & E23).
    assert (RU : forall u, output64 u -> Rabs (value i (next u) - value i own - x - (sent i s u - mean1 i s)) <= tau).
    { intros u Hu. assert (RC : Rabs (value i (next u) - (value i own + sent i s u)) <= B * bpow radix2 (-20)).
      { apply (hop_received draw i B own s (c u)); auto.
        specialize (NEAR u Hu). rewrite E22 in NEAR. pose proof (Rabs_triang (sent i s u - x) x) as T. replace (sent i s u - x + x) with (sent i s u) in T by ring. lra. }
      rewrite E20 in RC. rewrite E22, E23 in M1. unfold tau. rewrite E19.
      pose proof (Rabs_triang (value i (next u) - (value i own + sent i s u)) (mean1 i s - x)) as T.
      replace (value i (next u) - (value i own + sent i s u) + (mean1 i s - x)) with (value i (next u) - value i own - x - (sent i s u - mean1 i s)) in T by ring. lra. }
    rewrite EO, EQ. cbn [length mean_over_all]. rewrite S_INR. set (m := INR (length rest)).
    set (k := exp (l * (x - t) + Rabs l * tau + Rabs l * (m * tau) + l ^ 2 * q / 2)).
    apply Rle_trans with (mean_over_outputs (fun u => k * (fun u => exp (l * (sent i s u - mean1 i s))) u + 0 * (fun _ : Z => 0) u)).
    + apply mean_le. intros u Hu. cbv beta. specialize (IH u Hu HH' (t + value i own)). cbv zeta in IH. fold o q m tau in IH.
      rewrite (all_ext _ _ (fun us => exp (l * (value i (final (u :: us)) - (t + value i own + o))))) by (intros us; f_equal; ring).
      eapply Rle_trans; [exact IH|]. rewrite Rmult_0_l, Rplus_0_r. unfold k. rewrite <- exp_plus. apply MON.
      assert (A : l * (value i (next u) - value i own - x - (sent i s u - mean1 i s)) <= Rabs l * tau).
      { eapply Rle_trans; [apply Rle_abs|]. rewrite Rabs_mult. apply Rmult_le_compat_l; [apply Rabs_pos|apply RU; exact Hu]. }
      replace (l * (value i (next u) - (t + value i own))) with
        (l * (value i (next u) - value i own - x - (sent i s u - mean1 i s)) + l * (x - t) + l * (sent i s u - mean1 i s)) by ring. lra.
    + rewrite (mean_lin (fun u => exp (l * (sent i s u - mean1 i s))) (fun _ => 0)), Rmult_0_l, Rplus_0_r.
      apply Rle_trans with (k * exp (l ^ 2 * val (s_scale s) ^ 2 / 2)); [apply Rmult_le_compat_l; [left; apply exp_pos|exact O]|].
      unfold k. rewrite <- exp_plus. apply MON.
      assert (X : l ^ 2 * val (s_scale s) ^ 2 <= l ^ 2 * S ^ 2) by (apply Rmult_le_compat_l; [apply pow2_ge_0|exact W2]). lra.
Qed.
Theorem C78_concentration draw i B S x0 hops final d :
  a_draw draw -> 0 <= S <= B -> B <= bpow radix2 124 -> ring_run draw i B hops x0 final -> Forall (fun h => snd h <= S) hops -> hops <> [] -> 0 < d ->
  let m := length hops in
  let truth := value i x0 + rsum (fun h => value i (fst h)) hops in
  share m (fun us => Rle_bool (d + INR m * (B * bpow radix2 (-19))) (Rabs (value i (final us) - truth)))
    <= 2 * exp (- (d ^ 2 / (2 * rsum (fun h => snd h ^ 2) hops))).
Proof.
  intros HD HS HB HR HH NE Hd m truth.
  assert (Hv : 0 < rsum (fun h : mem * R => snd h ^ 2) hops).
  { destruct HR as [|own S1 rest b s c next final E1 E2 HOK HZ HW]; [congruence|]. rewrite rsum_cons. cbn [snd].
    assert (0 <= rsum (fun h : mem * R => snd h ^ 2) rest) by (apply rsum_ge0; intros; apply pow2_ge_0).
    assert (0 < S1); [|assert (0 < S1 ^ 2) by (apply pow_lt; assumption); lra]. destruct HOK as ((_ & L & _) & _). pose proof (bpow_gt_0 radix2 (-126)). lra. }
  assert (B0 : 0 <= INR m * (B * bpow radix2 (-19))) by (apply Rmult_le_pos; [apply pos_INR|apply Rmult_le_pos; [lra|apply bpow_ge_0]]).
  apply (share_exp m (fun us => value i (final us) - truth) d _ _ Hv Hd B0).
  intros l. pose proof (ring_mgf draw i B S hops x0 final l HD HS HB HR HH (value i x0)) as M. cbv zeta in M.
  eapply Rle_trans; [exact M|]. right. f_equal. fold m. ring.
Qed.

(** ** All elements of the tensor at once.  The elements of one message share one generator output, so they are not independent; the squared error of
    the tensor adds up nevertheless, and so do the shares. *)
Lemma share_exists m (far : nat -> list Z -> bool) p l : (forall i, In i l -> share m (far i) <= p) -> share m (fun us => existsb (fun i => far i us) l) <= INR (length l) * p.
Proof.
  induction l as [|a l IH]; intros H.
  - unfold share. cbn [existsb length INR]. rewrite all_const. lra.
  - cbn [length]. rewrite S_INR. apply Rle_trans with (share m (far a) + share m (fun us => existsb (fun i => far i us) l)).
    + unfold share. apply Rle_trans with (mean_over_all m (fun us => 1 * (fun us => if far a us then 1 else 0) us + 1 * (fun us => if existsb (fun i => far i us) l then 1 else 0) us)).
      * apply all_le. intros us _. cbn [existsb]. destruct (far a us), (existsb (fun i => far i us) l); cbn [orb]; lra.
      * rewrite (all_lin m (fun us => if far a us then 1 else 0) (fun us => if existsb (fun i => far i us) l then 1 else 0)). lra.
    + pose proof (H a (or_introl eq_refl)). specialize (IH (fun i Hi => H i (or_intror Hi))). lra.
Qed.
Lemma mean_sum m (f : nat -> list Z -> R) p l : (forall i, In i l -> mean_over_all m (f i) <= p) -> mean_over_all m (fun us => rsum (fun i => f i us) l) <= INR (length l) * p.
Proof.
  induction l as [|a l IH]; intros H.
  - change (fun us : list Z => rsum (fun i => f i us) []) with (fun us : list Z => 0). cbn [length INR]. rewrite all_const. lra.
  - cbn [length]. rewrite S_INR. rewrite (all_ext m _ (fun us => 1 * f a us + 1 * (fun us => rsum (fun i => f i us) l) us)) by (intros us; rewrite rsum_cons; ring).
    rewrite (all_lin m (f a) (fun us => rsum (fun i => f i us) l)). pose proof (H a (or_introl eq_refl)). specialize (IH (fun i Hi => H i (or_intror Hi))). lra.
Qed.
Theorem C78_tensor_error draw n B S x0 hops final :
  a_draw draw -> 0 <= S <= B -> B <= bpow radix2 124 -> (forall i, (i < n)%nat -> ring_run draw i B hops x0 final) -> Forall (fun h => snd h <= S) hops ->
  let m := length hops in
  let truth i := value i x0 + rsum (fun h => value i (fst h)) hops in
  mean_over_all m (fun us => rsum (fun i => (value i (final us) - truth i) ^ 2) (seq 0 n))
    <= INR n * (/ 4 * rsum (fun h => snd h ^ 2) hops + INR m ^ 2 * (B * bpow radix2 (-18) * (S + B * bpow radix2 (-19)))).
Proof.
  intros HD HS HB HR HH m truth.
  eapply Rle_trans; [apply (mean_sum m (fun i us => (value i (final us) - truth i) ^ 2) (/ 4 * rsum (fun h => snd h ^ 2) hops + INR m ^ 2 * (B * bpow radix2 (-18) * (S + B * bpow radix2 (-19)))))|].
  - intros i Hi. apply in_seq in Hi. apply (C78_stochastic_ring draw i B S x0 hops final HD HS HB (HR i ltac:(lia)) HH).
  - rewrite seq_length. lra.
Qed.
Theorem C78_every_element draw n B S x0 hops final d :
  a_draw draw -> 0 <= S <= B -> B <= bpow radix2 124 -> (forall i, (i < n)%nat -> ring_run draw i B hops x0 final) -> Forall (fun h => snd h <= S) hops -> hops <> [] -> 0 < d ->
  let m := length hops in
  let truth i := value i x0 + rsum (fun h => value i (fst h)) hops in
  share m (fun us => existsb (fun i => Rle_bool (d + INR m * (B * bpow radix2 (-19))) (Rabs (value i (final us) - truth i))) (seq 0 n))
    <= INR n * (2 * exp (- (d ^ 2 / (2 * rsum (fun h => snd h ^ 2) hops)))).
Proof.
  intros HD HS HB HR HH NE Hd m truth.
  eapply Rle_trans; [apply (share_exists m (fun i us => Rle_bool (d + INR m * (B * bpow radix2 (-19))) (Rabs (value i (final us) - truth i))) (2 * exp (- (d ^ 2 / (2 * rsum (fun h => snd h ^ 2) hops)))))|].
  - intros i Hi. apply in_seq in Hi. apply (C78_concentration draw i B S x0 hops final d HD HS HB (HR i ltac:(lia)) HH NE Hd).
  - rewrite seq_length. lra.
Qed.

(** With one and the same output at all n senders the average is off for EVERY output, by at least the distance of the scaled value to the nearest
    integer: more messages do not help. *)
Theorem C77_equal_seeds_always_off draw i s n u : a_draw draw -> sender_ok draw i s -> (0 < n)%nat -> output64 u ->
  let y := scaled (val (s_scale s)) (true_value i s) in
  let average := total i (repeat s n) (repeat u n) / INR n in
  Rabs (average - true_value i s) >= Rabs (val (s_scale s)) * (Rmin (frac y) (1 - frac y) - bpow radix2 (-100)) - Rabs (true_value i s) * bpow radix2 (-22).
Proof.
  intros HD (Hs & Hz & HI & HK & Hi & HR) H0 Hu y average. pose proof (scaled_rel (s_scale s) (true_value i s) Hs) as SR. pose proof (normal_good _ Hs) as Hg.
  assert (Pn : 0 < INR n) by (apply lt_0_INR; auto).
  assert (T : total i (repeat s n) (repeat u n) = INR n * sent i s u).
  { clear. induction n as [|n IH]; [unfold total; cbn; ring|]. cbn [repeat]. rewrite total_cons, IH, S_INR. ring. }
  assert (EA : average = sent i s u) by (unfold average; rewrite T; field; lra). rewrite EA. clear EA T average.
  destruct (share_unclipped _ _ _ _ _ _ _ _ _ _ _ i HD Hg Hz HI HK Hi HR) as (N & HN & HB & HC). fold (true_value i s) in HB, HC.
  unfold sent. rewrite (HC u Hu). clear HC. fold y in SR, HB |- *. set (w := val (s_scale s)) in *. set (x := true_value i s) in *.
  pose proof (frac_bounds y) as [F0 F1].
  assert (D : (IZR (away y) = IZR (toward y) + 1 /\ y = IZR (toward y) + frac y) \/ (IZR (away y) = IZR (toward y) - 1 /\ y = IZR (toward y) - frac y)).
  { unfold away, toward, frac. destruct (Rlt_bool_spec y 0) as [L|L].
    - right. rewrite !opp_IZR, plus_IZR, (Rabs_left y) by auto. split; ring.
    - left. rewrite plus_IZR, (Rabs_pos_eq y) by auto. split; ring. }
  change (scaled w x) with y. set (k := if (u <? N)%Z then away y else toward y).
  set (r := Rmin (frac y) (1 - frac y)). assert (R1 : r <= frac y) by apply Rmin_l. assert (R2 : r <= 1 - frac y) by apply Rmin_r.
  assert (K : r <= Rabs (IZR k - y)).
  { unfold k. destruct (u <? N)%Z, D as [[E1 E2]|[E1 E2]].
    - eapply Rle_trans; [|apply Rle_abs]. lra.
    - rewrite <- Rabs_Ropp. eapply Rle_trans; [|apply Rle_abs]. lra.
    - rewrite <- Rabs_Ropp. eapply Rle_trans; [|apply Rle_abs]. lra.
    - eapply Rle_trans; [|apply Rle_abs]. lra. }
  assert (Nw : w <> 0).
  { destruct Hs as (_ & L & _). fold w in L. intros E. rewrite E, Rabs_R0 in L. pose proof (bpow_gt_0 radix2 (-126)). lra. }
  assert (B2 : Rabs (w * y - x) <= Rabs x * (3 * u32r) + Rabs w * tiny).
  { replace (w * y - x) with (w * (y - x / w)) by (field; auto). rewrite Rabs_mult.
    apply Rle_trans with (Rabs w * (3 * u32r * Rabs (x / w) + tiny)); [apply Rmult_le_compat_l; [apply Rabs_pos|exact SR]|].
    right. unfold Rdiv. rewrite Rabs_mult, Rabs_inv. field. apply Rabs_no_R0. auto. }
  assert (T1 : tiny <= bpow radix2 (-100)) by (unfold tiny; apply bpow_le; lia).
  assert (T2 : 3 * u32r <= bpow radix2 (-22)) by (unfold u32r; cbn; lra).
  assert (A1 : Rabs w * r <= Rabs w * Rabs (IZR k - y)) by (apply Rmult_le_compat_l; [apply Rabs_pos|exact K]). rewrite <- Rabs_mult in A1.
  assert (A2 : Rabs w * tiny <= Rabs w * bpow radix2 (-100)) by (apply Rmult_le_compat_l; [apply Rabs_pos|exact T1]).
  assert (A3 : Rabs x * (3 * u32r) <= Rabs x * bpow radix2 (-22)) by (apply Rmult_le_compat_l; [apply Rabs_pos|exact T2]).
  pose proof (Rabs_triang (IZR k * w - x) (- (w * y - x))) as TR. rewrite Rabs_Ropp in TR. replace (IZR k * w - x + - (w * y - x)) with (w * (IZR k - y)) in TR by ring. lra.
Qed.
