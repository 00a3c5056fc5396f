(** PropsStochasticReduce.v -- C77 with the receiver's own calls: the f32 tensor a receiver obtains by adding the stochastic messages of n senders
    with dequantize(add), over all combinations of the senders' generator outputs. *)
From Coq Require Import ZArith List Lia Bool Arith ZifyBool ZifyNat Reals Lra.
From Flocq Require Import Core Binary Bits.
From Verif Require Import Base Floats Simd Dtypes Spec ApiSpec QuantKernels DequantKernels ExecFacts FloatFacts QuantFacts QuantKernelFacts
  QuantGenericFacts DequantFacts DequantGenericFacts QuantLanes Context ContextFacts Footprint QuantizeFacts DequantizeFacts Api PropsQuantize
  PropsMemory FloatFacts2 PropsDequantize PropsRoundTrip RoundTripFacts PropsIdempotent PropsStochastic Rng PropsRng PropsVariance PropsAccumulate PropsIndependent.
Import ListNotations.
Local Open Scope R_scope.

(** the packed buffer that sender [fst p] writes when its generator gives [snd p] arrives, possibly followed by other bytes *)
Definition delivers (p : sender * Z) (c : contribution) : Prop :=
  c_type c = s_out (fst p) /\ c_scale c = s_scale (fst p) /\ c_zp c = s_zp (fst p) /\ c_size c = length (s_codes (fst p) (snd p)) /\
  exists behind, c_bytes c = s_codes (fst p) (snd p) ++ behind.
(** one generator output for each of the n senders *)
Definition outputs (n : nat) (us : list Z) : Prop := length us = n /\ Forall output64 us.
(** the value of element [i] when the receiver is done *)
Definition received (i : nat) (r : res mem) : R := match r with Ok o => val (f32_at o i) | _ => 0 end.

(** ** Means: monotone, linear *)
Lemma mean_le f g : (forall u, output64 u -> f u <= g u) -> mean_over_outputs f <= mean_over_outputs g.
Proof.
  intros H. unfold mean_over_outputs. remember (Z.to_nat (2 ^ 64)) as M eqn:EM. assert (HM : Z.of_nat M = (2 ^ 64)%Z) by (rewrite EM, Z2Nat.id; lia). clear EM.
  apply Rmult_le_compat_r; [left; apply Rinv_0_lt_compat, IZR_lt; lia|].
  assert (X : forall m, (m <= M)%nat -> rsum_upto m (fun k => f (Z.of_nat k)) <= rsum_upto m (fun k => g (Z.of_nat k))).
  { induction m as [|m IH]; intros Hm; [unfold rsum_upto; cbn; lra|]. rewrite !rsum_S. apply Rplus_le_compat; [apply IH; lia|]. apply H. unfold output64. lia. }
  apply X. lia.
Qed.
Lemma all_le n : forall f g, (forall us, outputs n us -> f us <= g us) -> mean_over_all n f <= mean_over_all n g.
Proof.
  induction n as [|n IH]; intros f g H; cbn [mean_over_all]; [apply H; split; auto|]. apply mean_le. intros u Hu. apply IH. intros us [L F]. apply H.
  split; [cbn; lia|]. apply Forall_cons; auto.
Qed.
Lemma all_lin n : forall f g a b, mean_over_all n (fun us => a * f us + b * g us) = a * mean_over_all n f + b * mean_over_all n g.
Proof.
  induction n as [|n IH]; intros f g a b; cbn [mean_over_all]; [reflexivity|].
  rewrite <- (mean_lin (fun u => mean_over_all n (fun us => f (u :: us))) (fun u => mean_over_all n (fun us => g (u :: us)))). apply mean_ext. intros u _.
  apply (IH (fun us => f (u :: us)) (fun us => g (u :: us))).
Qed.
Lemma all_const n c : mean_over_all n (fun _ => c) = c.
Proof. induction n as [|n IH]; cbn [mean_over_all]; [reflexivity|]. apply mean_const_ext. intros u _. exact IH. Qed.

(** ** What arrives is what was sent *)
Lemma sender_code_len draw i s u : a_draw draw -> sender_ok draw i s -> output64 u -> quant_type (s_out s) /\ (i < codes_per_byte (s_out s) * length (s_codes s u))%nat.
Proof.
  intros HD (Hs & Hz & HI & HK & Hi & _) Hu. destruct (HK u Hu) as (HB & HR). destruct (C30_draw draw _ HD Hu) as [T _].
  destruct (C29_quantize_stochastic _ _ _ _ _ _ _ _ _ _ _ HB (normal_good _ Hs) Hz T HI HR) as (o' & E & L & _). injection E as <-.
  destruct HB as (_ & Hq & _ & LB & _). split; [exact Hq|]. rewrite L, LB, codes_per_byte_q, bytes_for_per_byte by auto.
  destruct Hq as [->|[->| ->]]; cbn [per_byte]; lia.
Qed.
Lemma delivered draw i s u c : a_draw draw -> sender_ok draw i s -> output64 u -> delivers (s, u) c -> c_exact c i = sent i s u.
Proof.
  intros HD HS Hu (E1 & E2 & E3 & _ & behind & E4). cbn [fst snd] in *. destruct (sender_code_len draw i s u HD HS Hu) as [Hq L].
  unfold c_exact, sent, c_int. rewrite E1, E2, E3, E4, code_at_app by auto. reflexivity.
Qed.
Definition reach (s : sender) : R := Rabs (val (s_scale s)) * IZR (code_max (s_out s) + Z.abs (s_zp s)).
Lemma sent_reach draw i s u : a_draw draw -> sender_ok draw i s -> output64 u -> Rabs (sent i s u) <= reach s.
Proof.
  intros HD HS Hu. destruct (sender_code_len draw i s u HD HS Hu) as [Hq _]. unfold sent, reach. rewrite Rabs_mult, Rmult_comm. apply Rmult_le_compat_l; [apply Rabs_pos|].
  apply abs_IZR_le. pose proof (code_at_le (s_out s) (s_codes s u) i Hq). lia.
Qed.
Lemma arrived draw i ss : a_draw draw -> Forall (sender_ok draw i) ss -> forall us cs, outputs (length ss) us -> Forall2 delivers (combine ss us) cs ->
  length cs = length ss /\ rsum (fun c => c_exact c i) cs = total i ss us /\ rsum (fun c => Rabs (c_exact c i)) cs <= rsum reach ss.
Proof.
  intros HD HS. induction HS as [|s ss H HS IH]; intros us cs [L F] HF.
  - cbn [combine] in HF. inversion HF; subst. unfold total, rsum. cbn. repeat split; lra.
  - destruct us as [|u us]; [discriminate L|]. cbn [combine] in HF. inversion HF as [|p c l cs' D HF']; subst. inversion F as [|? ? Hu F']; subst.
    destruct (IH us cs') as (I1 & I2 & I3); [split; auto; cbn in L; lia|exact HF'|]. rewrite total_cons, !rsum_cons.
    rewrite (delivered draw i s u c HD H Hu D). split; [cbn; lia|]. split; [rewrite I2; reflexivity|]. pose proof (sent_reach draw i s u HD H Hu). lra.
Qed.

(** ** The received sum *)
(** for every combination the receiver's sum is, up to the rounding of its additions, the old value plus what was sent *)
Lemma received_close draw i ss outm (cs : list Z -> list contribution) (r : list Z -> res mem) :
  let n := length ss in
  a_draw draw -> Forall (sender_ok draw i) ss -> Forall (fun s => (Z.abs (s_zp s) <= 2 ^ 19)%Z) ss -> finite (f32_at outm i) ->
  (forall us, outputs n us -> Forall2 delivers (combine ss us) (cs us) /\ Forall (contribution_ok outm) (cs us) /\
     accumulates (numel DT_F32 (length outm)) (cs us) i /\ chain add_step (cs us) outm (r us)) ->
  let old := val (f32_at outm i) in
  let mass := Rabs old + rsum reach ss in
  let rounding := ((1 + u_f32) ^ (n + 1) - 1) * mass in
  mass * (1 + u_f32) ^ (n + 1) <= bpow radix2 127 ->
  forall us, outputs n us -> exists o, r us = Ok o /\ finite (f32_at o i) /\ Rabs (received i (r us) - (old + total i ss us)) <= rounding.
Proof.
  intros n HD HS HZ F0 HC old mass rounding HM.
  assert (PM : 0 <= mass).
  { unfold mass. apply Rplus_le_le_0_compat; [apply Rabs_pos|]. apply rsum_ge0. intros s. unfold reach. apply Rmult_le_pos; [apply Rabs_pos|]. apply IZR_le.
    assert (0 <= code_max (s_out s))%Z by (destruct (s_out s); vm_compute; discriminate). lia. }
  assert (PG : 1 <= (1 + u_f32) ^ (n + 1)) by (apply pow_R1_Rle; unfold u_f32; lra).
  intros us HU. destruct (HC us HU) as (D & CO & AC & CH). destruct (arrived draw i ss HD HS us (cs us) HU D) as (LC & SC & MC).
    assert (AA : Forall accurate (cs us)).
    { assert (G : forall (ps : list (sender * Z)) l, Forall (fun p => normal_scale (s_scale (fst p)) /\ (Z.abs (s_zp (fst p)) <= 2 ^ 19)%Z) ps -> Forall2 delivers ps l -> Forall accurate l).
      { intros ps l HP HF. induction HF as [|p c ps l (E1 & E2 & E3 & _) _ IH]; [apply Forall_nil|]. inversion HP; subst. apply Forall_cons; [|apply IH; auto].
        unfold accurate. rewrite E2, E3. auto. }
      apply (G (combine ss us)); auto. apply Forall_forall. intros [s u] Hin. apply in_combine_l in Hin. cbn [fst]. rewrite Forall_forall in HS, HZ. split; [apply (HS s Hin)|apply (HZ s Hin)]. }
    destruct (C55_accumulated_error (cs us) outm (r us) CO AA CH) as (o & Er & _ & X). exists o. split; [exact Er|]. specialize (X i AC F0). cbv zeta in X. fold old in X.
    rewrite LC, SC in X. fold n in X.
    assert (MC' : Rabs old + rsum (fun c => Rabs (c_exact c i)) (cs us) <= mass) by (unfold mass; lra).
    destruct X as [X1 X2].
    { eapply Rle_trans; [|exact HM]. apply Rmult_le_compat_r; [lra|exact MC']. }
    split; [exact X1|]. unfold received. rewrite Er. eapply Rle_trans; [exact X2|]. unfold rounding. apply Rmult_le_compat_l; [lra|exact MC'].
Qed.
Theorem C77_received draw i ss outm (cs : list Z -> list contribution) (r : list Z -> res mem) :
  let n := length ss in
  a_draw draw -> Forall (sender_ok draw i) ss -> Forall (fun s => (Z.abs (s_zp s) <= 2 ^ 19)%Z) ss -> finite (f32_at outm i) ->
  (forall us, outputs n us -> Forall2 delivers (combine ss us) (cs us) /\ Forall (contribution_ok outm) (cs us) /\
     accumulates (numel DT_F32 (length outm)) (cs us) i /\ chain add_step (cs us) outm (r us)) ->
  let mass := Rabs (val (f32_at outm i)) + rsum reach ss in
  let rounding := ((1 + u_f32) ^ (n + 1) - 1) * mass in
  let bias := rsum (fun s => Rabs (val (s_scale s)) * bpow radix2 (-23) + Rabs (true_value i s) * bpow radix2 (-22)) ss + rounding in
  let truth := val (f32_at outm i) + rsum (true_value i) ss in
  let result us := received i (r us) in
  mass * (1 + u_f32) ^ (n + 1) <= bpow radix2 127 ->
  (forall us, outputs n us -> exists o, r us = Ok o /\ finite (f32_at o i)) /\
  Rabs (mean_over_all n result - truth) <= bias /\
  forall e, 0 < e -> mean_over_all n (fun us => (result us - truth) ^ 2) <= (1 + e) * (/ 4 * rsum (fun s => val (s_scale s) ^ 2) ss) + (1 + / e) * bias ^ 2.
Proof.
  intros n HD HS HZ F0 HC mass rounding bias truth result HM. set (old := val (f32_at outm i)) in *.
  assert (ONE : forall us, outputs n us -> exists o, r us = Ok o /\ finite (f32_at o i) /\ Rabs (result us - (old + total i ss us)) <= rounding)
    by exact (received_close draw i ss outm cs r HD HS HZ F0 HC HM).
  split; [intros us HU; destruct (ONE us HU) as (o & E & Fo & _); exists o; auto|].
  destruct (C77_independent_senders draw i ss HD HS) as [B V]. fold n in B, V. set (m0 := mean_over_all n (total i ss)) in *.
  set (b0 := rsum (fun s => Rabs (val (s_scale s)) * bpow radix2 (-23) + Rabs (true_value i s) * bpow radix2 (-22)) ss) in *. set (v := / 4 * rsum (fun s => val (s_scale s) ^ 2) ss) in *.
  split.
  - assert (U : mean_over_all n result <= old + rounding + m0).
    { apply Rle_trans with (mean_over_all n (fun us => 1 * total i ss us + (old + rounding) * (fun _ : list Z => 1) us)).
      - apply all_le. intros us HU. destruct (ONE us HU) as (o & _ & _ & X). apply Rabs_le_inv in X. lra.
      - rewrite (all_lin n (total i ss) (fun _ => 1)), all_const. fold m0. lra. }
    assert (D : old - rounding + m0 <= mean_over_all n result).
    { apply Rle_trans with (mean_over_all n (fun us => 1 * total i ss us + (old - rounding) * (fun _ : list Z => 1) us)).
      - rewrite (all_lin n (total i ss) (fun _ => 1)), all_const. fold m0. lra.
      - apply all_le. intros us HU. destruct (ONE us HU) as (o & _ & _ & X). apply Rabs_le_inv in X. lra. }
    apply Rabs_le_inv in B. unfold truth, bias. apply Rabs_le. lra.
  - intros e He. apply Rle_trans with (mean_over_all n (fun us => (1 + e) * (fun us => (total i ss us - m0) ^ 2) us + ((1 + / e) * bias ^ 2) * (fun _ : list Z => 1) us)).
    + apply all_le. intros us HU. destruct (ONE us HU) as (o & _ & _ & X).
      set (x := total i ss us - m0). set (y := result us - truth - x).
      assert (Y : Rabs y <= bias).
      { unfold y, x, truth, bias. replace (result us - (old + rsum (true_value i) ss) - (total i ss us - m0)) with ((m0 - rsum (true_value i) ss) + (result us - (old + total i ss us))) by ring.
        eapply Rle_trans; [apply Rabs_triang|]. lra. }
      replace (result us - truth) with (x + y) by (unfold y; ring).
      assert (Y2 : y ^ 2 <= bias ^ 2) by (rewrite <- (pow2_abs y); apply pow_incr; split; [apply Rabs_pos|exact Y]).
      assert (Pe : 0 < / e) by (apply Rinv_0_lt_compat; auto).
      assert (Q : (x + y) ^ 2 <= (1 + e) * x ^ 2 + (1 + / e) * y ^ 2).
      { assert (S : 0 <= (e * x - y) ^ 2 * / e) by (apply Rmult_le_pos; [apply pow2_ge_0|lra]).
        replace ((e * x - y) ^ 2 * / e) with (e * x ^ 2 - 2 * x * y + / e * y ^ 2) in S by (field; lra). lra. }
      assert ((1 + / e) * y ^ 2 <= (1 + / e) * bias ^ 2) by (apply Rmult_le_compat_l; lra). lra.
    + rewrite (all_lin n (fun us => (total i ss us - m0) ^ 2) (fun _ => 1)), all_const. rewrite Rmult_1_r. apply Rplus_le_compat_r. apply Rmult_le_compat_l; [lra|exact V].
Qed.
