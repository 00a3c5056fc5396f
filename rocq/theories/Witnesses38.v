(** Witnesses38.v -- concrete instances of the theorems of PropsIndependent.v (C77): senders of the sample tensor (uint4, scale 1/2, zero point
    2), whose element 1 is 1.25, half-way between the codes 4 and 5. *)
From Coq Require Import ZArith List Lia Bool Arith ZifyBool ZifyNat Reals Lra.
From Flocq Require Import Core Binary Bits.
From Verif Require Import Base Floats Simd Dtypes Spec ApiSpec QuantKernels ExecFacts FloatFacts Context ContextFacts Api PropsQuantize Schedule
  PropsMemory PropsRoundTrip RoundTripFacts FloatFacts2 PropsStochastic Rng PropsRng PropsVariance PropsAccumulate PropsIndependent Witnesses Witnesses20.
Import ListNotations.
Open Scope nat_scope.

Definition sends A nt oaddr (o : Z -> mem) : sender :=
  {| s_arch := fun _ => A; s_threads := fun _ => nt; s_addr := fun _ => oaddr; s_in := DT_F32; s_out := DT_UINT4; s_scale := f_half; s_zp := 2; s_data := sample DT_F32;
     s_buffer := fun _ => sample_out DT_UINT4; s_codes := o |}.
Lemma sends_ok draw A nt oaddr : few nt -> a_draw draw -> exists o, sender_ok draw 1 (sends A nt oaddr o).
Proof.
  intros Hn HD. assert (Hd : float_type DT_F32) by (left; reflexivity). assert (Hq : quant_type DT_UINT4) by (right; left; reflexivity). destruct (sample_len _ Hd) as [_ HL].
  assert (HX : forall i, i < numel DT_F32 (length (sample DT_F32)) -> quantizable f_half (elem_at DT_F32 (sample DT_F32) i)) by (rewrite HL; intros; apply sample_quantizable; auto).
  assert (Z62 : (Z.abs 2 <= 2 ^ 62)%Z) by lia.
  destruct (every_output draw A nt oaddr DT_F32 DT_UINT4 f_half 2 _ _ HD (sample_buffers nt _ _ Hd Hq Hn) half_good Z62 HX) as (o & HK).
  exists o. split; [exact half_normal|]. split; [exact Z62|]. split; [exact HX|]. split; [exact HK|]. split; [cbn [sends s_in s_data]; rewrite HL; lia|].
  unfold true_value. cbn [sends s_in s_out s_data s_scale s_zp]. rewrite (sample_scaled DT_F32 1 Hd) by lia.
  replace (2 * sval 1)%R with (5 / 2)%R by (unfold sval; cbn; lra).
  rewrite (Zfloor_imp 2) by (cbn; lra). rewrite (Zceil_imp 3) by (cbn; lra). change (code_max DT_UINT4) with 15%Z. cbn. lia.
Qed.
Lemma true_1 A nt oaddr o : true_value 1 (sends A nt oaddr o) = (5 / 4)%R.
Proof. unfold true_value. cbn [sends s_in s_data]. destruct (sample_elem DT_F32 1 (or_introl eq_refl) ltac:(lia)) as [_ ->]. unfold sval. cbn. lra. Qed.
Lemma rsum_same {X} (f : X -> R) a n : rsum f (repeat a n) = (INR n * f a)%R.
Proof. induction n as [|n IH]; [unfold rsum; cbn; ring|]. cbn [repeat]. rewrite rsum_cons, IH, S_INR. ring. Qed.

(** n machines with generators of their own: the average is 1.25 up to 2^-20, with a mean-square deviation of at most 1/(16 n) *)
Example C77_average_witness draw A nt oaddr n : few nt -> a_draw draw -> 0 < n -> exists o : Z -> mem,
  let ss := repeat (sends A nt oaddr o) n in
  let average us := (total 1 ss us / INR n)%R in
  (Rabs (mean_over_all n average - 5 / 4) <= bpow radix2 (-20))%R /\
  (mean_over_all n (fun us => (average us - mean_over_all n average) ^ 2) <= / (16 * INR n))%R.
Proof.
  intros Hn HD H0. destruct (sends_ok draw A nt oaddr Hn HD) as (o & HO). exists o. intros ss average. destruct half_ok as [_ V].
  assert (Pn : (0 < INR n)%R) by (apply lt_0_INR; auto).
  assert (HS : Forall (sender_ok draw 1) ss) by (apply Forall_forall; intros s H; apply repeat_spec in H; subst s; exact HO).
  assert (HL : Forall (fun s => (Rabs (val (s_scale s)) <= / 2)%R) ss).
  { apply Forall_forall. intros s H. apply repeat_spec in H. subst s. change (s_scale (sends A nt oaddr o)) with f_half. rewrite V, Rabs_pos_eq; lra. }
  assert (NE : ss <> []) by (unfold ss; destruct n; [lia|discriminate]).
  assert (LN : length ss = n) by apply repeat_length.
  destruct (C77_average draw 1 ss (/ 2) HD HS HL NE) as [B W]. rewrite LN in B, W. fold average in B, W. unfold ss in B at 1 2. rewrite !rsum_same, true_1 in B.
  rewrite (Rabs_pos_eq (5 / 4)) in B by lra. replace (INR n * (5 / 4) / INR n)%R with (5 / 4)%R in B by (field; lra). split.
  - change (fun us => total 1 ss us / INR n)%R with average in B. eapply Rle_trans; [exact B|]. 
    replace (bpow radix2 (-20)) with (8 * bpow radix2 (-23))%R by (change (-20)%Z with (3 + -23)%Z; rewrite bpow_plus; reflexivity).
    replace (bpow radix2 (-22)) with (2 * bpow radix2 (-23))%R by (change (-22)%Z with (1 + -23)%Z; rewrite bpow_plus; reflexivity).
    pose proof (bpow_gt_0 radix2 (-23)). lra.
  - change (fun us => total 1 ss us / INR n)%R with average in W. eapply Rle_trans; [exact W|]. right. field. lra.
Qed.
(** ... but 1/16, not 1/(16 n), if their generators give the same output *)
Example C77_equal_seeds_witness draw A nt oaddr n : few nt -> a_draw draw -> 0 < n -> exists o : Z -> mem,
  let s := sends A nt oaddr o in
  (Rabs (mean_over_outputs (fun u => (total 1 (repeat s n) (repeat u n) / INR n - 5 / 4) ^ 2) - / 16) <= bpow radix2 (-24))%R.
Proof.
  intros Hn HD H0. destruct (sends_ok draw A nt oaddr Hn HD) as (o & HO). exists o. intros s. destruct half_ok as [_ V].
  pose proof (C77_equal_seeds_refuted draw 1 s n HD HO H0) as B. cbv zeta in B. change (s_scale s) with f_half in B.
  assert (Y : scaled (val f_half) (true_value 1 s) = (5 / 2)%R).
  { unfold true_value. cbn [s sends s_in s_data]. rewrite (sample_scaled DT_F32 1 (or_introl eq_refl)) by lia. unfold sval. cbn. lra. }
  rewrite Y, V, frac_5_2 in B. replace (/ 2 * (5 / 2))%R with (5 / 4)%R in B by lra. replace ((/ 2) ^ 2 * (/ 2 * (1 - / 2)))%R with (/ 16)%R in B by lra.
  eapply Rle_trans; [exact B|]. pose proof small_bound as SB. pose proof (bpow_gt_0 radix2 (-24)). lra.
Qed.
(** two different machines, element sums *)
Example C77_sum_witness draw A nt oaddr A' nt' oaddr' : few nt -> few nt' -> a_draw draw -> exists o o' : Z -> mem,
  let ss := [sends A nt oaddr o; sends A' nt' oaddr' o'] in
  (mean_over_all 2 (fun us => (total 1 ss us - mean_over_all 2 (total 1 ss)) ^ 2) <= / 8)%R.
Proof.
  intros Hn Hn' HD. destruct (sends_ok draw A nt oaddr Hn HD) as (o & HO). destruct (sends_ok draw A' nt' oaddr' Hn' HD) as (o' & HO'). exists o, o'. intros ss. destruct half_ok as [_ V].
  assert (HS : Forall (sender_ok draw 1) ss) by (apply Forall_cons; [exact HO|apply Forall_cons; [exact HO'|apply Forall_nil]]).
  destruct (C77_independent_senders draw 1 ss HD HS) as [_ W]. change (length ss) with 2 in W. eapply Rle_trans; [exact W|].
  unfold ss. rewrite !rsum_cons. change (rsum (fun s => (val (s_scale s) ^ 2)%R) []) with 0%R.
  change (s_scale (sends A nt oaddr o)) with f_half. change (s_scale (sends A' nt' oaddr' o')) with f_half. rewrite V. lra.
Qed.
