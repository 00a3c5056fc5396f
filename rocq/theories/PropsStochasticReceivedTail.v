(** PropsStochasticReceivedTail.v -- C77, how often the sum a receiver ADDs up is far off: the senders' roundings and its own together. *)
From Coq Require Import ZArith List Lia Bool Arith ZifyBool ZifyNat Reals Lra.
From Flocq Require Import Core Binary Bits.
From Verif Require Import Base Floats Simd Dtypes Spec ApiSpec QuantKernels DequantKernels ExecFacts FloatFacts QuantFacts Context ContextFacts Api PropsQuantize
  PropsMemory FloatFacts2 PropsDequantize PropsRoundTrip RoundTripFacts PropsStochastic Rng PropsRng PropsVariance PropsAccumulate PropsIndependent PropsStochasticReduce PropsStochasticRing
  PropsStochasticTail.
Import ListNotations.
Local Open Scope R_scope.

Theorem C77_received_concentration draw i ss outm (cs : list Z -> list contribution) (r : list Z -> res mem) d :
  let n := length ss in
  a_draw draw -> Forall (sender_ok draw i) ss -> Forall (fun s => (Z.abs (s_zp s) <= 2 ^ 19)%Z) ss -> finite (f32_at outm i) ->
  (forall us, outputs n us -> Forall2 delivers (combine ss us) (cs us) /\ Forall (contribution_ok outm) (cs us) /\
     accumulates (numel DT_F32 (length outm)) (cs us) i /\ chain add_step (cs us) outm (r us)) ->
  let mass := Rabs (val (f32_at outm i)) + rsum reach ss in
  let rounding := ((1 + u_f32) ^ (n + 1) - 1) * mass in
  let bias := rsum (fun s => Rabs (val (s_scale s)) * bpow radix2 (-23) + Rabs (true_value i s) * bpow radix2 (-22)) ss + rounding in
  let truth := val (f32_at outm i) + rsum (true_value i) ss in
  let result us := received i (r us) in
  mass * (1 + u_f32) ^ (n + 1) <= bpow radix2 127 -> ss <> [] -> 0 < d ->
  share n (fun us => Rle_bool (d + bias) (Rabs (result us - truth))) <= 2 * exp (- (d ^ 2 / (2 * rsum (fun s => val (s_scale s) ^ 2) ss))).
Proof.
  intros n HD HS HZ F0 HC mass rounding bias truth result HM NE Hd. set (old := val (f32_at outm i)) in *.
  assert (ONE : forall us, outputs n us -> exists o, r us = Ok o /\ finite (f32_at o i) /\ Rabs (result us - (old + total i ss us)) <= rounding)
    by exact (received_close draw i ss outm cs r HD HS HZ F0 HC HM).
  destruct (C77_independent_senders draw i ss HD HS) as [B _]. fold n in B. pose proof (C77_concentration draw i ss d HD HS NE Hd) as C. cbv zeta in C. fold n in C.
  set (m0 := mean_over_all n (total i ss)) in *. eapply Rle_trans; [|exact C]. unfold share. apply all_le. intros us HU. destruct (ONE us HU) as (o & _ & _ & X).
  destruct (Rle_bool_spec (d + bias) (Rabs (result us - truth))) as [L|L]; destruct (Rle_bool_spec d (Rabs (total i ss us - m0))) as [M|M]; try lra. exfalso.
  assert (Y : Rabs (result us - truth) <= rounding + Rabs (total i ss us - m0) + Rabs (m0 - rsum (true_value i) ss)); [|unfold bias in L; lra].
  unfold truth. replace (result us - (old + rsum (true_value i) ss)) with ((result us - (old + total i ss us)) + ((total i ss us - m0) + (m0 - rsum (true_value i) ss))) by ring.
  pose proof (Rabs_triang (result us - (old + total i ss us)) ((total i ss us - m0) + (m0 - rsum (true_value i) ss))).
  pose proof (Rabs_triang (total i ss us - m0) (m0 - rsum (true_value i) ss)). lra.
Qed.

(** All elements of the receiver's tensor together: the share of the combinations for which any of them is off by more than d and its own bias. *)
Theorem C77_received_every_element draw k ss outm (cs : list Z -> list contribution) (r : list Z -> res mem) d :
  let n := length ss in
  a_draw draw -> Forall (fun s => (Z.abs (s_zp s) <= 2 ^ 19)%Z) ss ->
  (forall i, (i < k)%nat -> Forall (sender_ok draw i) ss /\ finite (f32_at outm i)) ->
  (forall us, outputs n us -> Forall2 delivers (combine ss us) (cs us) /\ Forall (contribution_ok outm) (cs us) /\
     (forall i, (i < k)%nat -> accumulates (numel DT_F32 (length outm)) (cs us) i) /\ chain add_step (cs us) outm (r us)) ->
  let mass i := Rabs (val (f32_at outm i)) + rsum reach ss in
  let rounding i := ((1 + u_f32) ^ (n + 1) - 1) * mass i in
  let bias i := rsum (fun s => Rabs (val (s_scale s)) * bpow radix2 (-23) + Rabs (true_value i s) * bpow radix2 (-22)) ss + rounding i in
  let truth i := val (f32_at outm i) + rsum (true_value i) ss in
  let result i us := received i (r us) in
  (forall i, (i < k)%nat -> mass i * (1 + u_f32) ^ (n + 1) <= bpow radix2 127) -> ss <> [] -> 0 < d ->
  share n (fun us => existsb (fun i => Rle_bool (d + bias i) (Rabs (result i us - truth i))) (seq 0 k))
    <= INR k * (2 * exp (- (d ^ 2 / (2 * rsum (fun s => val (s_scale s) ^ 2) ss)))).
Proof.
  intros n HD HZ HS HC mass rounding bias truth result HM NE Hd.
  eapply Rle_trans; [apply (share_exists n (fun i us => Rle_bool (d + bias i) (Rabs (result i us - truth i))) (2 * exp (- (d ^ 2 / (2 * rsum (fun s => val (s_scale s) ^ 2) ss)))))|].
  - intros i Hi. apply in_seq in Hi. assert (Hk : (i < k)%nat) by lia. destruct (HS i Hk) as [S1 S2].
    refine (C77_received_concentration draw i ss outm cs r d HD S1 HZ S2 _ (HM i Hk) NE Hd).
    intros us HU. destruct (HC us HU) as (A & B & C & D). repeat split; auto; apply (C i Hk).
  - rewrite seq_length. apply Rle_refl.
Qed.

(** With equal generator outputs at n equal senders the receiver's sum is off for EVERY output, by n times the distance of the scaled value to the
    nearest integer, up to the receiver's own rounding. *)
Theorem C77_received_equal_seeds draw i s n outm (cs : list Z -> list contribution) (r : list Z -> res mem) u :
  a_draw draw -> sender_ok draw i s -> (0 < n)%nat -> (Z.abs (s_zp s) <= 2 ^ 19)%Z -> finite (f32_at outm i) ->
  (forall us, outputs n us -> Forall2 delivers (combine (repeat s n) us) (cs us) /\ Forall (contribution_ok outm) (cs us) /\
     accumulates (numel DT_F32 (length outm)) (cs us) i /\ chain add_step (cs us) outm (r us)) ->
  let old := val (f32_at outm i) in
  let mass := Rabs old + INR n * reach s in
  let rounding := ((1 + u_f32) ^ (n + 1) - 1) * mass in
  mass * (1 + u_f32) ^ (n + 1) <= bpow radix2 127 -> output64 u ->
  let y := scaled (val (s_scale s)) (true_value i s) in
  let truth := old + INR n * true_value i s in
  Rabs (received i (r (repeat u n)) - truth) >=
    INR n * (Rabs (val (s_scale s)) * (Rmin (frac y) (1 - frac y) - bpow radix2 (-100)) - Rabs (true_value i s) * bpow radix2 (-22)) - rounding.
Proof.
  intros HD HS H0 HZ F0 HC old mass rounding HM Hu y truth.
  assert (REP : forall (f : sender -> R), rsum f (repeat s n) = INR n * f s).
  { intros f. clear. induction n as [|m IH]; [unfold rsum; cbn; ring|]. cbn [repeat]. rewrite rsum_cons, IH, S_INR. ring. }
  assert (LN : length (repeat s n) = n) by apply repeat_length.
  assert (FS : forall P : sender -> Prop, P s -> Forall P (repeat s n)) by (intros P HP; apply Forall_forall; intros z Hz; apply repeat_spec in Hz; subst z; exact HP).
  pose proof (received_close draw i (repeat s n) outm cs r HD (FS _ HS) (FS _ HZ) F0) as CL. cbv zeta in CL. rewrite LN, REP in CL. fold old in CL. fold mass in CL. fold rounding in CL.
  assert (HU : outputs n (repeat u n)).
  { split; [apply repeat_length|]. apply Forall_forall. intros z Hz. apply repeat_spec in Hz. subst z. exact Hu. }
  destruct (CL HC HM _ HU) as (o & _ & _ & X). clear CL.
  pose proof (C77_equal_seeds_always_off draw i s n u HD HS H0 Hu) as OFF. cbv zeta in OFF. fold y in OFF. set (lim := Rabs (val (s_scale s)) * (Rmin (frac y) (1 - frac y) - bpow radix2 (-100)) - Rabs (true_value i s) * bpow radix2 (-22)) in *.
  assert (Pn : 0 < INR n) by (apply lt_0_INR; exact H0). set (t := total i (repeat s n) (repeat u n)) in *.
  assert (Y : INR n * lim <= Rabs (t - INR n * true_value i s)).
  { replace (t - INR n * true_value i s) with (INR n * (t / INR n - true_value i s)) by (field; lra). rewrite Rabs_mult, (Rabs_pos_eq (INR n)) by lra. apply Rmult_le_compat_l; lra. }
  unfold truth. replace (t - INR n * true_value i s) with ((received i (r (repeat u n)) - (old + INR n * true_value i s)) - (received i (r (repeat u n)) - (old + t))) in Y by ring.
  pose proof (Rabs_triang (received i (r (repeat u n)) - (old + INR n * true_value i s)) (- (received i (r (repeat u n)) - (old + t)))) as TR. rewrite Rabs_Ropp in TR. unfold Rminus at 1 in Y. lra.
Qed.
