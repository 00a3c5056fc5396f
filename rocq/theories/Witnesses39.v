(** Witnesses39.v -- a concrete instance of PropsStochasticReduce.v (C77_received): four senders of the sample tensor (uint4, scale 1/2, zero
    point 2) on four CPUs; the receiver's element 1 starts at 1.25. *)
From Coq Require Import ZArith List Lia Bool Arith ZifyBool ZifyNat Reals Lra.
From Flocq Require Import Core Binary Bits.
From Verif Require Import Base Floats Simd Dtypes Spec ApiSpec QuantKernels ExecFacts FloatFacts Context ContextFacts Api PropsQuantize Schedule
  PropsMemory PropsDequantize PropsRoundTrip RoundTripFacts FloatFacts2 PropsStochastic Rng PropsRng PropsVariance PropsAccumulate PropsAnyInput PropsIndependent PropsStochasticReduce
  Witnesses Witnesses10 Witnesses20 Witnesses38.
Import ListNotations.
Open Scope nat_scope.

(** the message as the receiver (CPU [A], [nt] threads) adds it: one byte of something else behind it *)
Definition arrives A nt (p : sender * Z) : contribution :=
  {| c_arch := A; c_threads := nt; c_oaddr := 0; c_type := s_out (fst p); c_scale := s_scale (fst p); c_zp := s_zp (fst p);
     c_bytes := s_codes (fst p) (snd p) ++ [0%Z]; c_size := length (s_codes (fst p) (snd p)) |}.
Fixpoint add_all (cs : list contribution) (o : mem) : res mem :=
  match cs with
  | [] => Ok o
  | c :: cs => match run_seq (c_bytes c) o (dequantize_call (c_arch c) (c_threads c) (c_oaddr c) (c_type c) DT_F32 (c_scale c) (c_zp c) RO_ADD (c_size c) o) with
      Ok o' => add_all cs o' | Abort => Abort | UB => UB end
  end.
Lemma add_all_chain cs : forall o, chain add_step cs o (add_all cs o).
Proof.
  induction cs as [|c cs IH]; intros o; cbn [add_all]; [constructor|].
  pose proof (run_seq_returns (c_bytes c) o (dequantize_call (c_arch c) (c_threads c) (c_oaddr c) (c_type c) DT_F32 (c_scale c) (c_zp c) RO_ADD (c_size c) o)) as S.
  destruct (run_seq _ _ _) as [o'| |]; [eapply chain_next; [exact S|apply IH]|apply chain_stop; [exact S|discriminate]|apply chain_stop; [exact S|discriminate]].
Qed.
Lemma arrives_delivers A nt ps : Forall2 delivers ps (map (arrives A nt) ps).
Proof.
  induction ps as [|p ps IH]; cbn [map]; [constructor|]. constructor; [|exact IH]. unfold delivers, arrives. cbn [c_type c_scale c_zp c_size c_bytes].
  repeat split. exists [0%Z]. reflexivity.
Qed.
Lemma arrives_ok draw A nt A' nt' oaddr o u : few nt' -> a_draw draw -> sender_ok draw 1 (sends A nt oaddr o) -> output64 u ->
  contribution_ok (sample DT_F32) (arrives A' nt' (sends A nt oaddr o, u)).
Proof.
  intros Hn HD (Hs & Hz & _ & HK & _) Hu. destruct (HK u Hu) as (HB & HR). destruct (C30_draw draw _ HD Hu) as [T _].
  cbn [sends s_zp] in HR. assert (Z63 : (- 2 ^ 63 <= 2 < 2 ^ 63)%Z) by lia.
  destruct (C12_any_data _ _ _ _ _ _ _ _ _ _ _ _ HB (fun _ => T) Z63 HR) as [E|(o' & E & L & B & _)]; [discriminate|]. injection E as <-.
  cbn [sends s_codes s_out s_in s_data s_buffer] in L, B.
  assert (LL : length (o u) = bytes_for DT_UINT4 70) by (rewrite L; unfold sample_out; apply repeat_length).
  destruct (sample_len DT_F32 (or_introl eq_refl)) as [_ SN].
  unfold contribution_ok, arrives. cbn [fst snd sends s_codes s_out s_scale s_zp c_threads c_type c_bytes c_size c_zp c_scale].
  split; [|split; [cbn; lia|apply half_ok]]. unfold dq_buffers. rewrite SN. split; [right; left; reflexivity|]. split; [left; reflexivity|].
  split; [apply Forall_app; split; [exact B|apply Forall_cons; [unfold is_byte; lia|apply Forall_nil]]|]. split; [exact LL|]. rewrite app_length. split; [lia|].
  split; [apply sample_sizes; auto; left; reflexivity|]. discriminate.
Qed.

Example C77_received_witness draw nt : 1 <= nt <= 900 -> a_draw draw -> exists o1 o2 o3 o4 : Z -> mem,
  let ss := [sends AVX2 nt 0 o1; sends AVX512F nt 16 o2; sends GENERIC (nt + 1) 0 o3; sends NEON (nt + 2) 8 o4] in
  let result us := received 1 (add_all (map (arrives AVX2 nt) (combine ss us)) (sample DT_F32)) in
  (Rabs (mean_over_all 4 result - 25 / 4) <= / 16384)%R /\
  (mean_over_all 4 (fun us => (result us - 25 / 4) ^ 2) <= 26 / 100)%R.
Proof.
  intros Hn HD.
  destruct (sends_ok draw AVX2 nt 0 ltac:(unfold few; lia) HD) as (o1 & H1). destruct (sends_ok draw AVX512F nt 16 ltac:(unfold few; lia) HD) as (o2 & H2).
  destruct (sends_ok draw GENERIC (nt + 1) 0 ltac:(unfold few; lia) HD) as (o3 & H3). destruct (sends_ok draw NEON (nt + 2) 8 ltac:(unfold few; lia) HD) as (o4 & H4).
  exists o1, o2, o3, o4. intros ss result. destruct half_ok as [_ V].
  assert (HS : Forall (sender_ok draw 1) ss) by (apply Forall_cons; [exact H1|apply Forall_cons; [exact H2|apply Forall_cons; [exact H3|apply Forall_cons; [exact H4|apply Forall_nil]]]]).
  destruct (sample_elem DT_F32 1 (or_introl eq_refl) ltac:(lia)) as [F1 V1]. change (elem_at DT_F32 (sample DT_F32) 1) with (f32_at (sample DT_F32) 1) in F1, V1.
  replace (sval 1) with (5 / 4)%R in V1 by (unfold sval; cbn; lra).
  destruct (sample_len DT_F32 (or_introl eq_refl)) as [_ SN].
  assert (HC : forall us, outputs (length ss) us -> let cs := map (arrives AVX2 nt) (combine ss us) in
     Forall2 delivers (combine ss us) cs /\ Forall (contribution_ok (sample DT_F32)) cs /\ accumulates (numel DT_F32 (length (sample DT_F32))) cs 1 /\
     chain add_step cs (sample DT_F32) (add_all cs (sample DT_F32))).
  { intros us [L F] cs. split; [apply arrives_delivers|]. split; [|split; [|apply add_all_chain]].
    - apply Forall_forall. intros c Hc. apply in_map_iff in Hc. destruct Hc as ([s u] & <- & Hin). pose proof (in_combine_l _ _ _ _ Hin) as Is.
      pose proof (in_combine_r _ _ _ _ Hin) as Iu. rewrite Forall_forall in F. specialize (F u Iu).
      destruct Is as [<-|[<-|[<-|[<-|[]]]]]; apply (arrives_ok draw); auto; unfold few; lia.
    - rewrite SN. split; [lia|]. left. cbn; lia. }
  assert (HZ : Forall (fun s => (Z.abs (s_zp s) <= 2 ^ 19)%Z) ss).
  { apply Forall_forall. intros s Hs. destruct Hs as [<-|[<-|[<-|[<-|[]]]]]; cbn; lia. }
  pose proof (C77_received draw 1 ss (sample DT_F32) (fun us => map (arrives AVX2 nt) (combine ss us))
    (fun us => add_all (map (arrives AVX2 nt) (combine ss us)) (sample DT_F32)) HD HS HZ F1 HC) as T. cbv zeta in T. fold result in T. rewrite V1 in T.
  change (length ss) with 4 in T. change (4 + 1) with 5 in T.
  assert (ER : rsum reach ss = 34%R).
  { assert (G : forall A m oa o, reach (sends A m oa o) = (17 / 2)%R).
    { intros. unfold reach. cbn [sends s_scale s_out s_zp]. rewrite V. change (code_max DT_UINT4 + Z.abs 2)%Z with 17%Z. rewrite Rabs_pos_eq by lra. lra. }
    unfold ss. rewrite !rsum_cons, !G. change (rsum reach []) with 0%R. lra. }
  assert (ET : rsum (true_value 1) ss = 5%R).
  { unfold ss. rewrite !rsum_cons, !true_1. change (rsum (true_value 1) []) with 0%R. lra. }
  assert (ES : rsum (fun s => val (s_scale s) ^ 2)%R ss = 1%R).
  { unfold ss. rewrite !rsum_cons. change (rsum (fun s => (val (s_scale s) ^ 2)%R) []) with 0%R. cbn [sends s_scale]. rewrite V. lra. }
  set (b := rsum (fun s => Rabs (val (s_scale s)) * bpow radix2 (-23) + Rabs (true_value 1 s) * bpow radix2 (-22))%R ss) in T.
  assert (EB : b = (12 * bpow radix2 (-23))%R).
  { unfold b, ss. rewrite !rsum_cons, !true_1. cbn [sends s_scale]. rewrite V. rewrite (Rabs_pos_eq (5 / 4)), (Rabs_pos_eq (/ 2)) by lra.
    match goal with |- context [rsum ?f []] => change (rsum f []) with 0%R end.
    replace (bpow radix2 (-22)) with (2 * bpow radix2 (-23))%R by (change (-22)%Z with (1 + -23)%Z; rewrite bpow_plus; reflexivity). set (w := bpow radix2 (-23)). lra. }
  rewrite ER, ET, ES, EB in T. rewrite (Rabs_pos_eq (5 / 4)) in T by lra.
  assert (E23 : bpow radix2 (-23) = (/ 8388608)%R) by (cbn; lra). rewrite E23 in T.
  assert (RB : (0 <= ((1 + u_f32) ^ 5 - 1) <= 6 * u_f32)%R) by (unfold u_f32; lra).
  destruct T as (_ & T1 & T2).
  { assert (bpow radix2 127 >= 64)%R by (apply Rle_ge; change 64%R with (bpow radix2 6); apply bpow_le; lia). unfold u_f32 in *. lra. }
  set (B := (12 * / 8388608 + ((1 + u_f32) ^ 5 - 1) * (5 / 4 + 34))%R) in *.
  assert (PB : (0 <= B <= / 16384)%R) by (unfold B, u_f32 in *; lra).
  replace (5 / 4 + 5)%R with (25 / 4)%R in T1, T2 by lra. split; [eapply Rle_trans; [exact T1|apply PB]|].
  specialize (T2 (/ 64)%R ltac:(lra)). eapply Rle_trans; [exact T2|]. rewrite Rinv_inv.
  assert (B ^ 2 <= (/ 16384) ^ 2)%R by (apply pow_incr; lra). lra.
Qed.
