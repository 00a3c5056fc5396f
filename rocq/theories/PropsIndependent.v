(** PropsIndependent.v -- C77: stochastic messages of several senders with generators of their own.  The sum of the decoded messages is right
    on average and its variance is the SUM of the single variances, so the error of a mean of P messages shrinks like 1/sqrt P; with one and the
    same generator output at all senders (equally seeded contexts) it does not shrink at all. *)
From Coq Require Import ZArith List Lia Bool Reals Lra.
From Flocq Require Import Core Binary Bits.
From Verif Require Import Base Floats Dtypes Spec ApiSpec FloatFacts FloatFacts2 Context Api PropsQuantize PropsMemory PropsRoundTrip RoundTripFacts PropsStochastic Rng PropsRng PropsVariance PropsAccumulate.
Import ListNotations.
Local Open Scope R_scope.

(** A sender: its tensor, parameters, and for every output u of its 64-bit generator the codes its quantize call then writes. *)
Record sender := { s_arch : Z -> arch; s_threads : Z -> nat; s_addr : Z -> Z; s_in : dtype; s_out : dtype; s_scale : f32; s_zp : Z; s_data : mem;
                   s_buffer : Z -> mem; s_codes : Z -> mem }.
(** the value element [i] has at the sender, and the value the packed code stands for when the generator gave [u] *)
Definition true_value (i : nat) (s : sender) : R := val (elem_at (s_in s) (s_data s) i).
Definition sent (i : nat) (s : sender) (u : Z) : R := IZR (code_at (s_out s) (s_codes s u) i - s_zp s) * val (s_scale s).
Definition sender_ok (draw : Z -> f32) (i : nat) (s : sender) : Prop :=
  normal_scale (s_scale s) /\ (Z.abs (s_zp s) <= 2 ^ 62)%Z /\
  (forall k, (k < numel (s_in s) (length (s_data s)))%nat -> quantizable (s_scale s) (elem_at (s_in s) (s_data s) k)) /\
  all_outputs draw (s_arch s) (s_threads s) (s_addr s) (s_in s) (s_out s) (s_scale s) (s_zp s) (s_data s) (s_buffer s) (s_codes s) /\
  (i < numel (s_in s) (length (s_data s)))%nat /\
  (let y := scaled (val (s_scale s)) (true_value i s) in 0 <= Zfloor y + s_zp s /\ Zceil y + s_zp s <= code_max (s_out s))%Z.

(** the sum of the decoded values when the generators of the senders gave us = [u1; u2; ...] *)
Definition total (i : nat) (ss : list sender) (us : list Z) : R := rsum (fun p => sent i (fst p) (snd p)) (combine ss us).
(** the mean over all combinations of outputs of n generators, all (2^64)^n of them equally likely *)
Fixpoint mean_over_all (n : nat) (f : list Z -> R) : R :=
  match n with O => f [] | S n => mean_over_outputs (fun u => mean_over_all n (fun us => f (u :: us))) end.

(** ** Means *)
Lemma rsum_lin n f g a b : rsum_upto n (fun k => a * f k + b * g k) = a * rsum_upto n f + b * rsum_upto n g.
Proof. induction n as [|n IH]; [unfold rsum_upto; cbn; ring|]. rewrite !rsum_S, IH. ring. Qed.
Lemma mean_lin f g a b : mean_over_outputs (fun u => a * f u + b * g u) = a * mean_over_outputs f + b * mean_over_outputs g.
Proof.
  unfold mean_over_outputs. generalize (Z.to_nat (2 ^ 64)). intros M. rewrite rsum_lin. unfold Rdiv. ring.
Qed.
Lemma mean_const c : mean_over_outputs (fun _ => c) = c.
Proof. rewrite (two_valued_mean _ 0 c c); [ring|lia|]. intros u _. destruct (u <? 0)%Z; reflexivity. Qed.
Lemma mean_const_ext f c : (forall u, output64 u -> f u = c) -> mean_over_outputs f = c.
Proof. intros H. rewrite (mean_ext f (fun _ => c)) by exact H. apply mean_const. Qed.

Definition mean1 (i : nat) (s : sender) : R := mean_over_outputs (sent i s).
Definition var1 (i : nat) (s : sender) : R := mean_over_outputs (fun u => (sent i s u - mean1 i s) ^ 2).
Lemma centered i s : mean_over_outputs (fun u => sent i s u - mean1 i s) = 0.
Proof.
  rewrite (mean_ext _ (fun u => 1 * sent i s u + (- mean1 i s) * (fun _ : Z => 1) u)) by (intros; ring).
  rewrite (mean_lin (sent i s) (fun _ => 1) 1 (- mean1 i s)), mean_const. unfold mean1. ring.
Qed.
Lemma all_ext n : forall f g, (forall us, f us = g us) -> mean_over_all n f = mean_over_all n g.
Proof. induction n as [|n IH]; intros f g H; cbn [mean_over_all]; [apply H|]. apply mean_ext. intros u _. apply IH. intros us. apply H. Qed.
Lemma total_cons i s ss u us : total i (s :: ss) (u :: us) = sent i s u + total i ss us.
Proof. unfold total. cbn [combine]. rewrite rsum_cons. reflexivity. Qed.
Lemma mean_total i ss : forall c, mean_over_all (length ss) (fun us => c + total i ss us) = c + rsum (mean1 i) ss.
Proof.
  induction ss as [|s ss IH]; intros c; cbn [length mean_over_all]; [reflexivity|].
  rewrite (mean_ext _ (fun u => 1 * sent i s u + (c + rsum (mean1 i) ss) * (fun _ : Z => 1) u)).
  - rewrite (mean_lin (sent i s) (fun _ => 1)), mean_const, rsum_cons. fold (mean1 i s). ring.
  - intros u _. rewrite (all_ext _ _ (fun us => (c + sent i s u) + total i ss us)) by (intros us; rewrite total_cons; ring). rewrite IH. ring.
Qed.
Lemma square_total i ss : forall c, mean_over_all (length ss) (fun us => (c + (total i ss us - rsum (mean1 i) ss)) ^ 2) = c ^ 2 + rsum (var1 i) ss.
Proof.
  induction ss as [|s ss IH]; intros c; cbn [length mean_over_all].
  - unfold total, rsum. cbn. ring.
  - set (d := fun u => sent i s u - mean1 i s). set (V := rsum (var1 i) ss).
    rewrite (mean_ext _ (fun u => (c ^ 2 + V) * (fun _ : Z => 1) u + 1 * (fun u => 2 * c * d u + 1 * (fun u => d u ^ 2) u) u)).
    + rewrite (mean_lin (fun _ => 1) (fun u => 2 * c * d u + 1 * (fun u => d u ^ 2) u)), mean_const, (mean_lin d (fun u => d u ^ 2)).
      unfold d at 1. rewrite centered, rsum_cons. fold V. unfold var1. fold d. change (fun u => (sent i s u - mean1 i s) ^ 2) with (fun u => d u ^ 2). ring.
    + intros u _. rewrite (all_ext _ _ (fun us => ((c + d u) + (total i ss us - rsum (mean1 i) ss)) ^ 2)).
      2: { intros us. rewrite total_cons, rsum_cons. unfold d. ring. }
      rewrite IH. fold V. ring.
Qed.

(** ** One sender *)
Lemma one_sender draw i s : a_draw draw -> sender_ok draw i s ->
  Rabs (mean1 i s - true_value i s) <= Rabs (val (s_scale s)) * bpow radix2 (-23) + Rabs (true_value i s) * bpow radix2 (-22) /\
  0 <= var1 i s <= / 4 * val (s_scale s) ^ 2.
Proof.
  intros HD (Hs & Hz & HI & HK & Hi & HR). pose proof (scaled_rel (s_scale s) (true_value i s) Hs) as SR. pose proof (normal_good _ Hs) as Hg.
  destruct (share_unclipped _ _ _ _ _ _ _ _ _ _ _ i HD Hg Hz HI HK Hi HR) as (N & HN & HB & HC). fold (true_value i s) in HB, HC.
  set (y := scaled (val (s_scale s)) (true_value i s)) in *. set (w := val (s_scale s)) in *. set (x := true_value i s) in *.
  set (q := IZR N / IZR (2 ^ 64)) in *. pose proof (frac_bounds y) as [F0 F1].
  assert (Q : 0 <= q <= 1).
  { assert (G : 0 < IZR (2 ^ 64)) by (apply IZR_lt; lia). split.
    - apply Rmult_le_pos; [apply IZR_le; lia|left; apply Rinv_0_lt_compat; auto].
    - apply (Rmult_le_reg_r (IZR (2 ^ 64))); auto. unfold q, Rdiv. rewrite Rmult_assoc, Rinv_l, Rmult_1_r, Rmult_1_l by lra. apply IZR_le. lia. }
  assert (M : mean1 i s = IZR (toward y) * w + q * (IZR (away y) * w - IZR (toward y) * w)).
  { unfold mean1. apply two_valued_mean; [exact HN|]. intros u Hu. unfold sent. rewrite (HC u Hu). fold w. destruct (u <? N)%Z; reflexivity. }
  assert (V : var1 i s = (IZR (toward y) * w - mean1 i s) ^ 2 + q * ((IZR (away y) * w - mean1 i s) ^ 2 - (IZR (toward y) * w - mean1 i s) ^ 2)).
  { unfold var1. apply two_valued_mean; [exact HN|]. intros u Hu. unfold sent. rewrite (HC u Hu). fold w. destruct (u <? N)%Z; reflexivity. }
  assert (D : (IZR (away y) = IZR (toward y) + 1 /\ y = IZR (toward y) + frac y) \/ (IZR (away y) = IZR (toward y) - 1 /\ y = IZR (toward y) - frac y)).
  { unfold away, toward, frac. destruct (Rlt_bool_spec y 0) as [L|L].
    - right. rewrite !opp_IZR, plus_IZR, (Rabs_left y) by auto. split; ring.
    - left. rewrite plus_IZR, (Rabs_pos_eq y) by auto. split; ring. }
  assert (V2 : var1 i s = q * (1 - q) * w ^ 2).
  { rewrite V, M. destruct D as [[-> _]|[-> _]]; ring. }
  assert (B1 : Rabs (mean1 i s - w * y) <= Rabs w * (bpow radix2 (-24) + bpow radix2 (-64))).
  { assert (E : Rabs (mean1 i s - w * y) = Rabs w * Rabs (q - frac y)).
    { rewrite <- Rabs_mult, M. set (t := IZR (toward y)) in *. destruct D as [[-> E]|[-> E]].
      - rewrite E at 1. f_equal. ring.
      - rewrite E at 1. rewrite <- Rabs_Ropp. f_equal. ring. }
    rewrite E. apply Rmult_le_compat_l; [apply Rabs_pos|]. eapply Rle_trans; [exact HB|]. apply Rplus_le_compat_r.
    rewrite <- (Rmult_1_l (bpow radix2 (-24))) at 2. apply Rmult_le_compat_r; [apply bpow_ge_0|lra]. }
  assert (Nw : w <> 0).
  { destruct Hs as (_ & L & _). fold w in L. intros E. rewrite E, Rabs_R0 in L. pose proof (bpow_gt_0 radix2 (-126)). lra. }
  assert (B2 : Rabs (w * y - x) <= Rabs x * (3 * u32r) + Rabs w * tiny).
  { replace (w * y - x) with (w * (y - x / w)) by (field; auto). rewrite Rabs_mult.
    apply Rle_trans with (Rabs w * (3 * u32r * Rabs (x / w) + tiny)); [apply Rmult_le_compat_l; [apply Rabs_pos|exact SR]|].
    right. unfold Rdiv. rewrite Rabs_mult, Rabs_inv. field. apply Rabs_no_R0. auto. }
  split.
  - replace (mean1 i s - x) with ((mean1 i s - w * y) + (w * y - x)) by ring. eapply Rle_trans; [apply Rabs_triang|].
    assert (T1 : bpow radix2 (-24) + bpow radix2 (-64) + tiny <= bpow radix2 (-23)).
    { assert (X1 : bpow radix2 (-64) <= bpow radix2 (-25)) by (apply bpow_le; lia). assert (X2 : tiny <= bpow radix2 (-25)) by (unfold tiny; apply bpow_le; lia).
      assert (X3 : bpow radix2 (-24) = 2 * bpow radix2 (-25)) by (change (-24)%Z with (1 + -25)%Z; rewrite bpow_plus; reflexivity).
      assert (X4 : bpow radix2 (-23) = 4 * bpow radix2 (-25)) by (change (-23)%Z with (2 + -25)%Z; rewrite bpow_plus; reflexivity). lra. }
    assert (T2 : 3 * u32r <= bpow radix2 (-22)) by (unfold u32r; cbn; lra).
    pose proof (Rabs_pos w). pose proof (Rabs_pos x).
    assert (Rabs w * (bpow radix2 (-24) + bpow radix2 (-64) + tiny) <= Rabs w * bpow radix2 (-23)) by (apply Rmult_le_compat_l; auto).
    assert (Rabs x * (3 * u32r) <= Rabs x * bpow radix2 (-22)) by (apply Rmult_le_compat_l; auto). lra.
  - rewrite V2. pose proof (pow2_ge_0 w) as W2. pose proof (pow2_ge_0 (q - / 2)) as S2. split.
    + apply Rmult_le_pos; auto. apply Rmult_le_pos; lra.
    + apply Rmult_le_compat_r; auto. replace (q * (1 - q)) with (/ 4 - (q - / 2) ^ 2) by field. lra.
Qed.

Lemma rsum_le {X} (f g : X -> R) l : Forall (fun x => f x <= g x) l -> rsum f l <= rsum g l.
Proof. induction 1 as [|x l H _ IH]; [unfold rsum; cbn; lra|]. rewrite !rsum_cons. lra. Qed.
Lemma rsum_scal {X} (f : X -> R) c l : rsum (fun x => c * f x) l = c * rsum f l.
Proof. induction l as [|x l IH]; [unfold rsum; cbn; ring|]. rewrite !rsum_cons, IH. ring. Qed.

(** ** Generators of their own: the mean is right, and the variances add up. *)
Theorem C77_independent_senders draw i ss : a_draw draw -> Forall (sender_ok draw i) ss ->
  let n := length ss in
  let mean := mean_over_all n (total i ss) in
  Rabs (mean - rsum (true_value i) ss) <= rsum (fun s => Rabs (val (s_scale s)) * bpow radix2 (-23) + Rabs (true_value i s) * bpow radix2 (-22)) ss /\
  mean_over_all n (fun us => (total i ss us - mean) ^ 2) <= / 4 * rsum (fun s => val (s_scale s) ^ 2) ss.
Proof.
  intros HD HS n mean.
  assert (E : mean = rsum (mean1 i) ss).
  { unfold mean, n. rewrite (all_ext _ _ (fun us => 0 + total i ss us)) by (intros; ring). rewrite mean_total. ring. }
  split.
  - rewrite E. clear E mean n. induction HS as [|s ss H HS IH]; [unfold rsum; cbn; rewrite Rminus_0_r, Rabs_R0; lra|]. rewrite !rsum_cons.
    destruct (one_sender draw i s HD H) as [B _].
    replace (mean1 i s + rsum (mean1 i) ss - (true_value i s + rsum (true_value i) ss)) with ((mean1 i s - true_value i s) + (rsum (mean1 i) ss - rsum (true_value i) ss)) by ring.
    eapply Rle_trans; [apply Rabs_triang|]. lra.
  - rewrite (all_ext _ _ (fun us => (0 + (total i ss us - rsum (mean1 i) ss)) ^ 2)) by (intros us; rewrite E; ring). unfold n. rewrite square_total.
    rewrite <- (rsum_scal (fun s => val (s_scale s) ^ 2) (/ 4) ss). apply Rle_trans with (rsum (var1 i) ss); [lra|]. apply rsum_le.
    apply (Forall_impl _ (P := sender_ok draw i)); [|exact HS]. intros s H. apply (one_sender draw i s HD H).
Qed.

(** the mean of n messages with steps of at most S: mean-square deviation at most S^2 / (4 n) *)
Theorem C77_average draw i ss S : a_draw draw -> Forall (sender_ok draw i) ss -> Forall (fun s => Rabs (val (s_scale s)) <= S) ss -> ss <> [] ->
  let n := length ss in
  let average us := total i ss us / INR n in
  let mean := mean_over_all n average in
  Rabs (mean - rsum (true_value i) ss / INR n) <= S * bpow radix2 (-23) + rsum (fun s => Rabs (true_value i s)) ss / INR n * bpow radix2 (-22) /\
  mean_over_all n (fun us => (average us - mean) ^ 2) <= S ^ 2 / (4 * INR n).
Proof.
  intros HD HS HL NE n average mean. destruct (C77_independent_senders draw i ss HD HS) as [B V]. fold n in B, V.
  assert (Pn : 0 < INR n) by (apply lt_0_INR; unfold n; destruct ss; [congruence|cbn; lia]).
  assert (SC : forall m (f : list Z -> R) c, mean_over_all m (fun us => c * f us) = c * mean_over_all m f).
  { induction m as [|m IH]; intros f c; cbn [mean_over_all]; [reflexivity|].
    rewrite (mean_ext _ (fun u => c * mean_over_all m (fun us => f (u :: us)) + 0 * (fun _ : Z => 0) u)) by (intros u _; rewrite (IH (fun us => f (u :: us)) c); ring).
    rewrite (mean_lin (fun u => mean_over_all m (fun us => f (u :: us))) (fun _ => 0)). ring. }
  assert (EM : mean = mean_over_all n (total i ss) / INR n).
  { unfold mean, average. rewrite (all_ext _ _ (fun us => / INR n * total i ss us)) by (intros; unfold Rdiv; ring). rewrite SC. unfold Rdiv. ring. }
  set (m0 := mean_over_all n (total i ss)) in *. pose proof (Rinv_0_lt_compat _ Pn) as Pi. split.
  - rewrite EM. replace (m0 / INR n - rsum (true_value i) ss / INR n) with ((m0 - rsum (true_value i) ss) * / INR n) by (unfold Rdiv; ring).
    rewrite Rabs_mult, (Rabs_pos_eq (/ INR n)) by lra.
    apply Rle_trans with ((INR n * S * bpow radix2 (-23) + rsum (fun s => Rabs (true_value i s)) ss * bpow radix2 (-22)) * / INR n).
    + apply Rmult_le_compat_r; [lra|]. eapply Rle_trans; [exact B|]. unfold n. clear - HL. induction HL as [|s ss H HL IH]; [unfold rsum; cbn; lra|].
      rewrite !rsum_cons. cbn [length]. rewrite S_INR. pose proof (bpow_gt_0 radix2 (-23)) as P. pose proof (Rmult_le_compat_r _ _ _ (Rlt_le _ _ P) H). lra.
    + right. unfold Rdiv. field. lra.
  - rewrite (all_ext _ _ (fun us => / INR n ^ 2 * (total i ss us - m0) ^ 2)).
    2: { intros us. rewrite EM. unfold average. field. lra. }
    rewrite SC. apply Rle_trans with (/ INR n ^ 2 * (/ 4 * (INR n * S ^ 2))).
    + assert (P2 : 0 < INR n ^ 2) by (apply pow_lt; auto). apply Rmult_le_compat_l; [left; apply Rinv_0_lt_compat; auto|].
      eapply Rle_trans; [exact V|]. apply Rmult_le_compat_l; [lra|]. unfold n. clear - HL. induction HL as [|s ss H HL IH]; [unfold rsum; cbn; lra|].
      rewrite rsum_cons. cbn [length]. rewrite S_INR. assert (val (s_scale s) ^ 2 <= S ^ 2).
      { rewrite <- (pow2_abs (val (s_scale s))). apply pow_incr. split; [apply Rabs_pos|exact H]. } lra.
    + right. field. lra.
Qed.

(** ** One generator output for all senders: the mean of n equal messages is as uncertain as a single message. *)
Theorem C77_equal_seeds_refuted draw i s n : a_draw draw -> sender_ok draw i s -> (0 < n)%nat ->
  let y := scaled (val (s_scale s)) (true_value i s) in
  let average u := total i (repeat s n) (repeat u n) / INR n in
  Rabs (mean_over_outputs (fun u => (average u - val (s_scale s) * y) ^ 2) - val (s_scale s) ^ 2 * (frac y * (1 - frac y)))
    <= val (s_scale s) ^ 2 * (frac y * bpow radix2 (-24) + bpow radix2 (-64)).
Proof.
  intros HD (Hs & Hz & HI & HK & Hi & HR) Hn y average. pose proof (normal_good _ Hs) as Hg. assert (Pn : 0 < INR n) by (apply lt_0_INR; auto).
  destruct (C30_generator_variance _ _ _ _ _ _ _ _ _ _ _ HD Hg Hz HI HK i Hi HR) as [V _]. cbv zeta in V. fold (true_value i s) in V. fold y in V.
  assert (T : forall u, total i (repeat s n) (repeat u n) = INR n * sent i s u).
  { intros u. clear. induction n as [|n IH]; [unfold total; cbn; ring|]. cbn [repeat]. rewrite total_cons, IH, S_INR. ring. }
  set (w := val (s_scale s)) in *. set (e := fun u => (IZR (code_at (s_out s) (s_codes s u) i - s_zp s) - y) ^ 2) in *.
  rewrite (mean_ext _ (fun u => w ^ 2 * e u + 0 * (fun _ : Z => 0) u)).
  - rewrite (mean_lin e (fun _ => 0)), mean_const.
    replace (w ^ 2 * mean_over_outputs e + 0 * 0 - w ^ 2 * (frac y * (1 - frac y))) with (w ^ 2 * (mean_over_outputs e - frac y * (1 - frac y))) by ring.
    rewrite Rabs_mult, (Rabs_pos_eq (w ^ 2)) by apply pow2_ge_0. apply Rmult_le_compat_l; [apply pow2_ge_0|exact V].
  - intros u _. unfold average. rewrite T. unfold sent, e. fold w. field. lra.
Qed.
