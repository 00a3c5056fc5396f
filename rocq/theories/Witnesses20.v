(** Witnesses20.v -- concrete calls that meet the hypotheses of the theorems of PropsVariance.v. *)
From Coq Require Import ZArith List Lia Bool Arith ZifyBool ZifyNat Reals Lra.
From Flocq Require Import Core Binary Bits.
From Verif Require Import Base Floats Simd Dtypes Spec ApiSpec QuantKernels ExecFacts FloatFacts Context ContextFacts Api PropsQuantize Schedule
  PropsMemory FloatFacts2 PropsStochastic Rng PropsRng PropsVariance Witnesses.
Import ListNotations.

Lemma every_output draw A nt oaddr din dout scale zp inm outm : a_draw draw -> buffers_ok nt din dout inm outm -> good_scale scale -> (Z.abs zp <= 2 ^ 62)%Z ->
  (forall i, i < numel din (length inm) -> quantizable scale (elem_at din inm i)) ->
  exists o, all_outputs draw (fun _ => A) (fun _ => nt) (fun _ => oaddr) din dout scale zp inm (fun _ => outm) o.
Proof.
  intros HD HB Hs Hz HX. set (c := fun u => quantize_call A nt oaddr din dout scale zp RM_STOCHASTIC (draw u) inm outm).
  exists (fun u => match run_seq inm outm (c u) with Ok m => m | _ => [] end).
  intros u Hu. split; auto. destruct (C30_draw draw u HD Hu) as [TH _]. pose proof (run_seq_returns inm outm (c u)) as R.
  destruct (C29_quantize_stochastic A nt oaddr din dout scale zp (draw u) inm outm _ HB Hs Hz TH HX R) as (m & E & _). rewrite E in R |- *. exact R.
Qed.
Lemma frac_5_2 : frac (5 / 2) = (/ 2)%R.
Proof. unfold frac. rewrite Rabs_pos_eq by lra. rewrite (Zfloor_imp 2) by (cbn; lra). lra. Qed.
Lemma small_bound : (/ 2 * bpow radix2 (-24) + bpow radix2 (-64) <= bpow radix2 (-24))%R.
Proof.
  assert (bpow radix2 (-64) <= bpow radix2 (-25))%R by (apply bpow_le; lia).
  assert (E : (bpow radix2 (-24) = 2 * bpow radix2 (-25))%R) by (change (-24)%Z with (1 + -25)%Z; rewrite bpow_plus; reflexivity). rewrite E in *. lra.
Qed.

(** Element 1 of the sample, 1.25, scales to 2.5: mean-square error 1/4. *)
Example C30_variance_witness draw A nt oaddr : few nt -> a_draw draw ->
  exists o : Z -> mem,
    all_outputs draw (fun _ => A) (fun _ => nt) (fun _ => oaddr) DT_F32 DT_UINT4 f_half 2 (sample DT_F32) (fun _ => sample_out DT_UINT4) o /\
    (Rabs (mean_over_outputs (fun u => (IZR (code_at DT_UINT4 (o u) 1 - 2) - 5 / 2) ^ 2) - / 4) <= bpow radix2 (-24))%R.
Proof.
  intros Hn HD. assert (Hd : float_type DT_F32) by (left; reflexivity). assert (Hq : quant_type DT_UINT4) by (right; left; reflexivity). destruct (sample_len _ Hd) as [_ HL].
  assert (HX : forall i, i < numel DT_F32 (length (sample DT_F32)) -> quantizable f_half (elem_at DT_F32 (sample DT_F32) i)) by (rewrite HL; intros; apply sample_quantizable; auto).
  assert (Z62 : (Z.abs 2 <= 2 ^ 62)%Z) by lia.
  destruct (every_output draw A nt oaddr DT_F32 DT_UINT4 f_half 2 _ _ HD (sample_buffers nt _ _ Hd Hq Hn) half_good Z62 HX) as (o & HK).
  exists o. split; auto.
  assert (S1 : scaled (val f_half) (val (elem_at DT_F32 (sample DT_F32) 1)) = (5 / 2)%R) by (rewrite sample_scaled by (auto; lia); unfold sval; cbn; lra).
  assert (H1 : 1 < numel DT_F32 (length (sample DT_F32))) by (rewrite HL; lia).
  pose proof (C30_generator_variance draw _ _ _ _ _ _ _ _ _ _ HD half_good Z62 HX HK 1 H1) as M. cbv zeta in M. rewrite S1 in M.
  assert (RG : (0 <= Zfloor (5 / 2) + 2 /\ Zceil (5 / 2) + 2 <= code_max DT_UINT4)%Z).
  { rewrite (Zfloor_imp 2) by (cbn; lra). rewrite (Zceil_imp 3) by (cbn; lra). change (code_max DT_UINT4) with 15%Z. lia. }
  destruct (M RG) as [B _]. rewrite frac_5_2 in B. replace (/ 2 * (1 - / 2))%R with (/ 4)%R in B by lra. eapply Rle_trans; [exact B|apply small_bound].
Qed.

(** Five times 1.25: the average error of the five codes still has mean square 1/4. *)
Definition five : mem := concat (repeat [0; 0; 0xa0; 0x3f]%Z 5).
Example C31_average_witness draw A nt oaddr : few nt -> a_draw draw ->
  exists o : Z -> mem,
    all_outputs draw (fun _ => A) (fun _ => nt) (fun _ => oaddr) DT_F32 DT_UINT4 f_half 2 five (fun _ => [0; 0; 0]%Z) o /\
    (Rabs (mean_over_outputs (fun u => (rsum_upto 5 (fun i => IZR (code_at DT_UINT4 (o u) i - 2) - 5 / 2) / INR 5) ^ 2) - / 4) <= bpow radix2 (-24))%R.
Proof.
  intros Hn HD. assert (Hd : float_type DT_F32) by (left; reflexivity). assert (Hq : quant_type DT_UINT4) by (right; left; reflexivity).
  assert (HL : numel DT_F32 (length five) = 5) by reflexivity.
  assert (HE : forall i, i < 5 -> elem_at DT_F32 five i = elem_at DT_F32 five 0).
  { intros i Hi. destruct i as [|[|[|[|[|]]]]]; try lia; reflexivity. }
  assert (E1 : elem_at DT_F32 five 0 = elem_at DT_F32 (sample DT_F32) 1) by reflexivity.
  assert (S1 : scaled (val f_half) (val (elem_at DT_F32 five 0)) = (5 / 2)%R) by (rewrite E1, sample_scaled by (auto; lia); unfold sval; cbn; lra).
  assert (Q0 : quantizable f_half (elem_at DT_F32 five 0)) by (rewrite E1; apply sample_quantizable; auto; lia).
  assert (HB : buffers_ok nt DT_F32 DT_UINT4 five [0; 0; 0]%Z).
  { unfold buffers_ok. rewrite HL. split; auto. split; auto. split; [|split; [reflexivity|]].
    - unfold five. cbn. repeat constructor; unfold is_byte; lia.
    - unfold sizes_ok, few in *. change (length five) with 20. lia. }
  assert (Z62 : (Z.abs 2 <= 2 ^ 62)%Z) by lia.
  assert (HX : forall i, i < numel DT_F32 (length five) -> quantizable f_half (elem_at DT_F32 five i)) by (rewrite HL; intros i Hi; rewrite HE; auto).
  destruct (every_output draw A nt oaddr DT_F32 DT_UINT4 f_half 2 _ _ HD HB half_good Z62 HX) as (o & HK).
  exists o. split; auto.
  pose proof (C31_errors_do_not_average draw (fun _ => A) (fun _ => nt) (fun _ => oaddr) DT_F32 DT_UINT4 f_half 2 five (fun _ => [0; 0; 0]%Z) o HD half_good Z62) as M. cbv zeta in M. rewrite HL, S1 in M.
  assert (RG : (0 <= Zfloor (5 / 2) + 2 /\ Zceil (5 / 2) + 2 <= code_max DT_UINT4)%Z).
  { rewrite (Zfloor_imp 2) by (cbn; lra). rewrite (Zceil_imp 3) by (cbn; lra). change (code_max DT_UINT4) with 15%Z. lia. }
  destruct (M ltac:(lia) HE Q0 HK RG) as [_ B]. rewrite frac_5_2 in B. replace (/ 2 * (1 - / 2))%R with (/ 4)%R in B by lra. eapply Rle_trans; [exact B|apply small_bound].
Qed.
