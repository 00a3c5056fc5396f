(** Witnesses3.v -- concrete calls that meet the hypotheses of the theorems of PropsTyped.v, PropsArena.v and PropsRng.v. *)
From Coq Require Import ZArith List Lia Bool Arith ZifyBool ZifyNat Reals Lra.
From Flocq Require Import Core Binary Bits.
From Verif Require Import Base Floats Simd Dtypes Spec ApiSpec PathSpec ConfigSpec QuantKernels DequantKernels ExecFacts FloatFacts QuantFacts QuantKernelFacts
  QuantGenericFacts DequantFacts DequantGenericFacts QuantLanes Context ContextFacts Footprint QuantizeFacts DequantizeFacts Api PropsQuantize Schedule
  PropsMemory FloatFacts2 PropsDequantize PropsRoundTrip Bf16Spec Bf16Facts PropsDispatch PropsStochastic Typed PropsTyped Arena ArenaFacts PropsArena Rng PropsRng Witnesses.
Import ListNotations.
Ltac Zify.zify_post_hook ::= Z.div_mod_to_equations.

Local Notation Hf32 := (or_introl eq_refl : float_type DT_F32).

(** ** C41, C42 *)
(** 70 floats into a span of 35 uint4_t *)
Example C41_witness A nt oaddr thr r : few nt ->
  returns (sample DT_F32) (sample_out DT_UINT4) (quantize_generic A nt oaddr T_float T_uint4 70 35 f_half 2 RM_NEAREST thr) r ->
  exists o, r = Ok o /\ length o = 35 /\ forall i, i < 70 -> code_at DT_UINT4 o i = clamp 0 15 (skc i + 2).
Proof.
  intros Hn HR. assert (Hd : float_type DT_F32) by (left; reflexivity). destruct (sample_len _ Hd) as [LB HL].
  assert (LO : length (sample_out DT_UINT4) = 35) by reflexivity. rewrite <- LO in HR at 2.
  destruct (C41_quantize_codes A nt oaddr T_float T_uint4 70 f_half 2 thr (sample DT_F32) (sample_out DT_UINT4) r) as (o & -> & L & C); auto.
  - left; reflexivity.
  - right; left; reflexivity.
  - apply sample_bytes.
  - apply sample_sizes; auto.
  - apply half_good.
  - apply nz2.
  - intros i Hi. apply sample_nearest; auto.
  - exists o. split; auto. split; [congruence|]. intros i Hi. rewrite C by auto. cbn [type_code]. rewrite sample_code by auto. reflexivity.
Qed.
(** ... and not into a span of 70 uint4_t *)
Example C41_witness_objects A nt oaddr scale zp rm thr : few nt -> quantize_generic A nt oaddr T_float T_uint4 70 70 scale zp rm thr = Abort.
Proof.
  intros Hn. apply C41_one_object_per_element_refuted; [left; reflexivity|lia|]. unfold few in *. unfold sizes_ok. cbn [stride type_code]. lia.
Qed.
(** 1.0 and its successor differ *)
Example C42_witness : bfp16_eqb 0x3f80 0x3f81 = false /\ ~ ieee_equal 0x3f80 0x3f81.
Proof.
  split; [reflexivity|]. intros H. assert (N : ~ nan (bf16_to_f32 0x3f80)) by (unfold nan; vm_compute; discriminate).
  pose proof (C42_only_zeros_differ 0x3f80 0x3f81 ltac:(lia) ltac:(lia) H eq_refl) as Q. 
  revert Q. vm_compute. intuition discriminate.
Qed.

(** ** C43, C44.  One memory of 680 bytes: the sample (70 floats) at 0, a uint8 output at 280, a uint4 output at 350, a float buffer at 400. *)
Definition arena : mem := sample DT_F32 ++ repeat 0xaa%Z 70 ++ repeat 0xbb%Z 35 ++ repeat 0xcc%Z 15 ++ repeat 0xdd%Z 280.
Definition to_u8 (A : arch) (nt : nat) : request := mk_request A nt 0 280 0 280 70 (Do_quantize DT_F32 DT_UINT8 f_half 2 RM_NEAREST thr4).
Definition to_u4 (A : arch) (nt : nat) : request := mk_request A nt 0 280 0 350 35 (Do_quantize DT_F32 DT_UINT4 f_half 2 RM_STOCHASTIC thr4).
Definition fused_q (A : arch) (nt : nat) : request := mk_request A nt 0 280 0 400 280 (Do_fused DT_F32 DT_UINT8 f_half 2 RM_NEAREST RO_SET thr4).
Definition from_u8 (A : arch) (nt : nat) : request := mk_request A nt 280 70 1 400 280 (Do_dequantize DT_UINT8 DT_F32 f_half 2 RO_SET).

Lemma arena_length : length arena = 680. Proof. vm_compute. reflexivity. Qed.
Lemma arena_input : slice 0 280 arena = sample DT_F32. Proof. vm_compute. reflexivity. Qed.
Lemma arena_bytes : Forall is_byte arena.
Proof.
  apply Forall_forall. intros x Hx. assert (H : forallb (fun x => (0 <=? x)%Z && (x <? 256)%Z) arena = true) by (vm_compute; reflexivity).
  rewrite forallb_forall in H. specialize (H x Hx). unfold is_byte. lia.
Qed.
(** some interleaving of the worker threads exists *)
Lemma concat_interleave {X} (tr : list (list X)) : interleave tr (concat tr).
Proof. apply interleave_concat. Qed.
Lemma concurrently_total base qs m : exists r, concurrently base qs m r.
Proof.
  unfold concurrently. destruct (sequence (map (request_launch base) qs)) as [Ls| |]; [|eauto|eauto].
  eexists. exists (concat (tagged_from 0 Ls)). split; [apply concat_interleave|reflexivity].
Qed.
Lemma program_total base p : forall m, exists r, program_runs base p m r.
Proof.
  induction p as [|qs p IH]; intros m; [eexists; constructor|]. destruct (concurrently_total base qs m) as [[m'| |] H].
  - destruct (IH m') as [r R]. exists r. econstructor; eauto.
  - exists Abort. apply pr_fail; auto. discriminate.
  - exists UB. apply pr_fail; auto. discriminate.
Qed.

Lemma to_u8_ok A nt : few nt -> request_ok (to_u8 A nt) arena.
Proof.
  intros Hn. assert (Hd : float_type DT_F32) by (left; reflexivity). assert (Hq : quant_type DT_UINT8) by (right; right; reflexivity).
  unfold request_ok, to_u8. cbn [q_cmd q_extra q_threads q_isize q_arch]. unfold input_of. cbn [q_in q_isize]. rewrite arena_input.
  split; auto. split; [|split; [apply half_good|split; [discriminate|split; [intros; apply nz2|]]]].
  - apply (sample_buffers nt DT_F32 DT_UINT8 Hd Hq Hn).
  - intros i Hi. apply sample_input; auto. lia.
Qed.
Lemma to_u4_ok A nt : few nt -> request_ok (to_u4 A nt) arena.
Proof.
  intros Hn. assert (Hd : float_type DT_F32) by (left; reflexivity). assert (Hq : quant_type DT_UINT4) by (right; left; reflexivity).
  unfold request_ok, to_u4. cbn [q_cmd q_extra q_threads q_isize q_arch]. unfold input_of. cbn [q_in q_isize]. rewrite arena_input.
  split; auto. split; [|split; [apply half_good|split; [intros; eapply st4; eauto|split; [discriminate|]]]].
  - unfold output_of. cbn [q_out q_osize to_u4]. destruct (sample_buffers nt DT_F32 DT_UINT4 Hd Hq Hn) as (B1 & B2 & B3 & B4 & B5).
    unfold buffers_ok. repeat split; auto; try apply B5. 
  - intros i Hi. apply sample_input; auto. lia.
Qed.
Lemma fused_ok A nt : few nt -> request_ok (fused_q A nt) arena.
Proof.
  intros Hn. assert (Hd : float_type DT_F32) by (left; reflexivity). assert (Hq : quant_type DT_UINT8) by (right; right; reflexivity).
  unfold request_ok, fused_q. cbn [q_cmd q_extra q_threads q_isize q_osize q_arch]. unfold input_of. cbn [q_in q_isize]. rewrite arena_input.
  split; auto. split; auto. split; auto. split; auto. split; [apply (sample_sizes DT_F32 nt Hd Hn)|]. split; [apply half_good|].
  split; [lia|]. split; [discriminate|]. intros i Hi. apply (sample_quantizable DT_F32 i Hd). exact Hi.
Qed.
Lemma arena_separate A1 n1 A2 n2 A3 n3 : separate [to_u8 A1 n1; to_u4 A2 n2; fused_q A3 n3] arena.
Proof.
  unfold separate. rewrite arena_length. split; [|split].
  - intros q [<-|[<-|[<-|[]]]]; cbn [q_in q_isize q_extra q_out q_osize to_u8 to_u4 fused_q]; lia.
  - intros q q' [<-|[<-|[<-|[]]]] [<-|[<-|[<-|[]]]]; unfold apart; cbn [q_in q_isize q_extra q_out q_osize to_u8 to_u4 fused_q]; lia.
  - intros j k q q' N Hj Hk. destruct j as [|[|[|j]]], k as [|[|[|k]]]; cbn [nth_error] in *; try lia;
      try (destruct j; discriminate); try (destruct k; discriminate); injection Hj as <-; injection Hk as <-; unfold apart; cbn [q_out q_osize to_u8 to_u4 fused_q]; lia.
Qed.
(** Three calls at the same time, on three contexts, reading the same input: a run exists, and every run ends with the documented codes. *)
Example C43_witness base A1 n1 A2 n2 A3 n3 : few n1 -> few n2 -> few n3 ->
  (exists r, concurrently base [to_u8 A1 n1; to_u4 A2 n2; fused_q A3 n3] arena r) /\
  forall r, concurrently base [to_u8 A1 n1; to_u4 A2 n2; fused_q A3 n3] arena r ->
  exists m', r = Ok m' /\ length m' = 680 /\
    (forall i, i < 70 -> code_at DT_UINT8 (slice 280 70 m') i = clamp 0 255 (skc i + 2)) /\
    (forall i, i < 70 -> code_at DT_UINT4 (slice 350 35 m') i = stoch_code DT_UINT4 (val f_half) 2 (val thr4) (val (f32_at (sample DT_F32) i))) /\
    (forall j, j < 280 -> nth j m' 0%Z = nth j (sample DT_F32) 0%Z) /\ (forall j, 385 <= j < 400 -> nth j m' 0%Z = 0xcc%Z).
Proof.
  intros H1 H2 H3. split; [apply concurrently_total|]. intros r HR. assert (Hd : float_type DT_F32) by (left; reflexivity).
  destruct (C43_documented_results base _ arena r (arena_separate A1 n1 A2 n2 A3 n3)) as (m' & -> & L & D & F); auto.
  { intros q [<-|[<-|[<-|[]]]]; [apply to_u8_ok|apply to_u4_ok|apply fused_ok]; auto. }
  exists m'. split; auto. split; [rewrite L; apply arena_length|]. split; [|split; [|split]].
  - intros i Hi. pose proof (D _ (or_introl eq_refl)) as Q. unfold request_done, to_u8 in Q. cbn [q_cmd q_isize] in Q.
    unfold input_of, output_of in Q. cbn [q_in q_out q_isize q_osize] in Q. rewrite arena_input in Q. specialize (Q i Hi). rewrite Q.
    cbn [expected_code]. rewrite sample_code by auto. reflexivity.
  - intros i Hi. pose proof (D _ (or_intror (or_introl eq_refl))) as Q. unfold request_done, to_u4 in Q. cbn [q_cmd q_isize] in Q.
    unfold input_of, output_of in Q. cbn [q_in q_out q_isize q_osize] in Q. rewrite arena_input in Q. specialize (Q i Hi). rewrite Q. reflexivity.
  - intros j Hj. rewrite F; [|intros q [<-|[<-|[<-|[]]]]; cbn; lia]. unfold arena. rewrite app_nth1; auto.
  - intros j Hj. rewrite F; [|intros q [<-|[<-|[<-|[]]]]; cbn; lia].
    replace j with (385 + (j - 385)) by lia. assert (K : j - 385 < 15) by lia. revert K. generalize (j - 385). clear.
    intros k K. do 15 (destruct k as [|k]; [vm_compute; reflexivity|]). lia.
Qed.
(** ... then dequantizing the uint8 codes into the float buffer, as a second round *)
Example C44_witness base A1 n1 A2 n2 : few n1 -> few n2 ->
  (exists r, program_runs base [[to_u8 A1 n1]; [from_u8 A2 n2]] arena r) /\
  forall r, program_runs base [[to_u8 A1 n1]; [from_u8 A2 n2]] arena r ->
  exists m', r = Ok m' /\ forall i, i < 70 -> f32_at (slice 400 280 m') i = fmul (f32_of_Z (clamp 0 255 (skc i + 2) - 2)) f_half.
Proof.
  intros H1 H2. split; [apply program_total|]. intros r HR. assert (Hd : float_type DT_F32) by (left; reflexivity).
  destruct (C44_quantize_then_dequantize base (to_u8 A1 n1) (from_u8 A2 n2) DT_F32 DT_UINT8 f_half 2 RM_NEAREST thr4 f_half 2 arena r) as (m' & -> & L & D & F); auto.
  - apply arena_bytes.
  - unfold separate. rewrite arena_length. split; [|split].
    + intros q [<-|[]]; cbn; lia.
    + intros q q' [<-|[]] [<-|[]]; unfold apart; cbn; lia.
    + intros [|j] [|k] q q' N Hj Hk; cbn [nth_error] in *; try lia; try (destruct j; discriminate); destruct k; discriminate.
  - unfold separate. rewrite arena_length. split; [|split].
    + intros q [<-|[]]; cbn; lia.
    + intros q q' [<-|[]] [<-|[]]; unfold apart; cbn; lia.
    + intros [|j] [|k] q q' N Hj Hk; cbn [nth_error] in *; try lia; try (destruct j; discriminate); destruct k; discriminate.
  - apply to_u8_ok; auto.
  - apply (sample_sizes DT_F32 n2 Hd H2).
  - lia.
  - exists m'. split; auto. intros i Hi. unfold output_of, from_u8, input_of, to_u8 in D. cbn [q_out q_osize q_in q_isize] in D. rewrite arena_input in D.
    rewrite D by exact Hi. cbn [expected_code]. rewrite sample_code by auto. reflexivity.
Qed.

(** ** C30.  Element 1 of the sample, 1.25, scales to 2.5: over all 2^64 generator outputs the codes minus the zero point average to 2.5 within 2^-24. *)
Example C30_generator_witness draw A nt oaddr : few nt -> a_draw draw ->
  exists o : Z -> mem,
    all_outputs draw (fun _ => A) (fun _ => nt) (fun _ => oaddr) DT_F32 DT_UINT4 f_half 2 (sample DT_F32) (fun _ => sample_out DT_UINT4) o /\
    (Rabs (IZR (sum_upto (Z.to_nat (2 ^ 64)) (fun u => code_at DT_UINT4 (o (Z.of_nat u)) 1 - 2)%Z) / IZR (2 ^ 64) - 5 / 2) <= bpow radix2 (-24))%R.
Proof.
  intros Hn HD. assert (Hd : float_type DT_F32) by (left; reflexivity). assert (Hq : quant_type DT_UINT4) by (right; left; reflexivity). destruct (sample_len _ Hd) as [_ HL].
  set (c := fun u => quantize_call A nt oaddr DT_F32 DT_UINT4 f_half 2 RM_STOCHASTIC (draw u) (sample DT_F32) (sample_out DT_UINT4)).
  set (o := fun u => match run_seq (sample DT_F32) (sample_out DT_UINT4) (c u) with Ok m => m | _ => [] end).
  assert (HX : forall i, i < numel DT_F32 (length (sample DT_F32)) -> quantizable f_half (elem_at DT_F32 (sample DT_F32) i)) by (rewrite HL; intros; apply sample_quantizable; auto).
  assert (Z62 : (Z.abs 2 <= 2 ^ 62)%Z) by lia.
  assert (HK : all_outputs draw (fun _ => A) (fun _ => nt) (fun _ => oaddr) DT_F32 DT_UINT4 f_half 2 (sample DT_F32) (fun _ => sample_out DT_UINT4) o).
  { intros u Hu. split; [apply sample_buffers; auto|]. destruct (C30_draw draw u HD Hu) as [TH _].
    pose proof (run_seq_returns (sample DT_F32) (sample_out DT_UINT4) (c u)) as R.
    destruct (C29_quantize_stochastic A nt oaddr DT_F32 DT_UINT4 f_half 2 (draw u) _ _ _ (sample_buffers nt _ _ Hd Hq Hn) half_good Z62 TH HX R) as (m & E & _).
    unfold o. rewrite E in R |- *. exact R. }
  exists o. split; auto.
  assert (S1 : scaled (val f_half) (val (elem_at DT_F32 (sample DT_F32) 1)) = (5 / 2)%R) by (rewrite sample_scaled by (auto; lia); unfold sval; cbn; lra).
  pose proof (C30_generator_mean draw _ _ _ _ _ _ _ _ _ _ HD half_good Z62 HX HK 1) as M. cbv zeta in M. rewrite S1 in M.
  assert (FR : frac (5 / 2) = (/ 2)%R) by (unfold frac; rewrite Rabs_pos_eq by lra; rewrite (Zfloor_imp 2) by (cbn; lra); lra).
  eapply Rle_trans; [apply M|].
  - rewrite HL. lia.
  - rewrite (Zfloor_imp 2) by (cbn; lra). rewrite (Zceil_imp 3) by (cbn; lra). cbn. lia.
  - rewrite FR. assert (bpow radix2 (-64) <= bpow radix2 (-25))%R by (apply bpow_le; lia).
    assert (E : (bpow radix2 (-24) = 2 * bpow radix2 (-25))%R) by (change (-24)%Z with (1 + -25)%Z; rewrite bpow_plus; reflexivity). rewrite E in *. lra.
Qed.
