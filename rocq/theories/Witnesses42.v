(** Witnesses42.v -- a concrete instance of PropsStochasticReceivedTail.v (C77): sixteen machines send an element with step 1/2 and value 1.25, the
    receiver adds them to 1.25: it is off by 8.001 of 21.25 for at most 2*exp(-8) of all combinations of generator outputs. *)
From Coq Require Import ZArith List Lia Bool Arith ZifyBool ZifyNat Reals Lra.
From Flocq Require Import Core Binary Bits.
From Verif Require Import Base Floats Simd Dtypes Spec ApiSpec QuantKernels ExecFacts FloatFacts Context ContextFacts Api PropsQuantize Schedule
  PropsMemory PropsDequantize PropsRoundTrip RoundTripFacts FloatFacts2 PropsStochastic Rng PropsRng PropsVariance PropsAccumulate PropsAnyInput PropsIndependent PropsStochasticReduce
  PropsStochasticRing PropsStochasticTail PropsStochasticReceivedTail Witnesses Witnesses10 Witnesses20 Witnesses38 Witnesses39.
Import ListNotations.
Open Scope nat_scope.

Lemma rsum_repeat {A} (f : A -> R) a n : rsum f (repeat a n) = (INR n * f a)%R.
Proof. induction n as [|n IH]; [unfold rsum; cbn; ring|]. cbn [repeat]. rewrite rsum_cons, IH, S_INR. ring. Qed.

Example C77_received_concentration_witness draw A nt nt' oaddr : few nt -> few nt' -> a_draw draw -> exists o : Z -> mem,
  let ss := repeat (sends A nt oaddr o) 16 in
  let result us := received 1 (add_all (map (arrives AVX2 nt') (combine ss us)) (sample DT_F32)) in
  (share 16 (fun us => Rle_bool (8 + / 1000) (Rabs (result us - 85 / 4))) <= 2 * exp (- (8)))%R.
Proof.
  intros Hn Hn' HD. destruct (sends_ok draw A nt oaddr Hn HD) as (o & HO). exists o. intros ss result. destruct half_ok as [_ V].
  assert (HS : Forall (sender_ok draw 1) ss) by (apply Forall_forall; intros s H; apply repeat_spec in H; subst s; exact HO).
  destruct (sample_elem DT_F32 1 (or_introl eq_refl) ltac:(lia)) as [F1 V1]. change (elem_at DT_F32 (sample DT_F32) 1) with (f32_at (sample DT_F32) 1) in F1, V1.
  replace (sval 1) with (5 / 4)%R in V1 by (unfold sval; cbn; lra).
  destruct (sample_len DT_F32 (or_introl eq_refl)) as [_ SN].
  assert (HC : forall us, outputs (length ss) us -> let cs := map (arrives AVX2 nt') (combine ss us) in
     Forall2 delivers (combine ss us) cs /\ Forall (contribution_ok (sample DT_F32)) cs /\ accumulates (numel DT_F32 (length (sample DT_F32))) cs 1 /\
     chain add_step cs (sample DT_F32) (add_all cs (sample DT_F32))).
  { intros us [L F] cs. split; [apply arrives_delivers|]. split; [|split; [|apply add_all_chain]].
    - apply Forall_forall. intros c Hc. apply in_map_iff in Hc. destruct Hc as ([s u] & <- & Hin). pose proof (in_combine_l _ _ _ _ Hin) as Is.
      pose proof (in_combine_r _ _ _ _ Hin) as Iu. rewrite Forall_forall in F. specialize (F u Iu). apply repeat_spec in Is. subst s. apply (arrives_ok draw); auto.
    - rewrite SN. split; [lia|]. left. cbn; lia. }
  assert (HZ : Forall (fun s => (Z.abs (s_zp s) <= 2 ^ 19)%Z) ss).
  { apply Forall_forall. intros s H. apply repeat_spec in H. subst s. cbn; lia. }
  pose proof (C77_received_concentration draw 1 ss (sample DT_F32) (fun us => map (arrives AVX2 nt') (combine ss us))
    (fun us => add_all (map (arrives AVX2 nt') (combine ss us)) (sample DT_F32)) 8 HD HS HZ F1 HC) as T. cbv zeta in T. fold result in T. rewrite V1 in T.
  change (length ss) with 16 in T. change (16 + 1) with 17 in T.
  assert (E16 : INR 16 = 16%R) by (cbn; lra).
  assert (ER : rsum reach ss = 136%R).
  { unfold ss. rewrite rsum_repeat, E16. unfold reach. cbn [sends s_scale s_out s_zp]. rewrite V. change (code_max DT_UINT4 + Z.abs 2)%Z with 17%Z. rewrite Rabs_pos_eq by lra. lra. }
  assert (ET : rsum (true_value 1) ss = 20%R) by (unfold ss; rewrite rsum_repeat, E16, true_1; lra).
  assert (ES : rsum (fun s => val (s_scale s) ^ 2)%R ss = 4%R) by (unfold ss; rewrite rsum_repeat, E16; cbn [sends s_scale]; rewrite V; lra).
  set (b := rsum (fun s => Rabs (val (s_scale s)) * bpow radix2 (-23) + Rabs (true_value 1 s) * bpow radix2 (-22))%R ss) in T.
  assert (EB : b = (48 * bpow radix2 (-23))%R).
  { unfold b, ss. rewrite rsum_repeat, E16, true_1. cbn [sends s_scale]. rewrite V. rewrite (Rabs_pos_eq (5 / 4)), (Rabs_pos_eq (/ 2)) by lra.
    replace (bpow radix2 (-22)) with (2 * bpow radix2 (-23))%R by (change (-22)%Z with (1 + -23)%Z; rewrite bpow_plus; reflexivity). set (w := bpow radix2 (-23)). lra. }
  rewrite ER, ET, ES, EB in T. rewrite (Rabs_pos_eq (5 / 4)) in T by lra.
  assert (E23 : bpow radix2 (-23) = (/ 8388608)%R) by (cbn; lra). rewrite E23 in T.
  assert (RB : (0 <= (1 + u_f32) ^ 17 - 1 <= 18 * u_f32)%R) by (unfold u_f32; lra). set (g := ((1 + u_f32) ^ 17)%R) in *.
  assert (HM : ((5 / 4 + 136) * g <= bpow radix2 127)%R).
  { assert (bpow radix2 127 >= 1024)%R by (apply Rle_ge; change 1024%R with (bpow radix2 10); apply bpow_le; lia). unfold u_f32 in *. lra. }
  specialize (T HM ltac:(discriminate) ltac:(lra)).
  set (B := (48 * / 8388608 + (g - 1) * (5 / 4 + 136))%R) in *. assert (PB : (B <= / 1000)%R) by (unfold B, u_f32 in *; lra).
  replace (5 / 4 + 20)%R with (85 / 4)%R in T by lra. replace (8 ^ 2 / (2 * 4))%R with 8%R in T by lra. eapply Rle_trans; [|exact T].
  unfold share. apply all_le. intros us _. unfold result. set (q := Rabs (received 1 _ - 85 / 4)). destruct (Rle_bool_spec (8 + / 1000) q) as [L|L]; destruct (Rle_bool_spec (8 + B) q) as [M|M]; lra.
Qed.

(** elements 0 (value 0) and 1 (value 1.25) together *)
Lemma sends_ok_both draw A nt oaddr : few nt -> a_draw draw -> exists o, forall i, i < 2 -> sender_ok draw i (sends A nt oaddr o).
Proof.
  intros Hn HD. assert (Hd : float_type DT_F32) by (left; reflexivity). assert (Hq : quant_type DT_UINT4) by (right; left; reflexivity). destruct (sample_len _ Hd) as [_ HL].
  assert (HX : forall i, i < numel DT_F32 (length (sample DT_F32)) -> quantizable f_half (elem_at DT_F32 (sample DT_F32) i)) by (rewrite HL; intros; apply sample_quantizable; auto).
  assert (Z62 : (Z.abs 2 <= 2 ^ 62)%Z) by lia.
  destruct (every_output draw A nt oaddr DT_F32 DT_UINT4 f_half 2 _ _ HD (sample_buffers nt _ _ Hd Hq Hn) half_good Z62 HX) as (o & HK).
  exists o. intros i Hi. split; [exact half_normal|]. split; [exact Z62|]. split; [exact HX|]. split; [exact HK|]. split; [cbn [sends s_in s_data]; rewrite HL; lia|].
  unfold true_value. cbn [sends s_in s_out s_data s_scale s_zp]. rewrite (sample_scaled DT_F32 i Hd) by lia. change (code_max DT_UINT4) with 15%Z.
  assert (I : i = 0 \/ i = 1) by lia. destruct I as [-> | ->].
  - replace (2 * sval 0)%R with 0%R by (unfold sval; cbn; lra). rewrite (Zfloor_IZR 0), (Zceil_IZR 0). cbn. lia.
  - replace (2 * sval 1)%R with (5 / 2)%R by (unfold sval; cbn; lra). rewrite (Zfloor_imp 2) by (cbn; lra). rewrite (Zceil_imp 3) by (cbn; lra). cbn. lia.
Qed.
Example C77_received_every_element_witness draw A nt nt' oaddr : few nt -> few nt' -> a_draw draw -> exists (o : Z -> mem) (bias : nat -> R),
  let ss := repeat (sends A nt oaddr o) 16 in
  let result i us := received i (add_all (map (arrives AVX2 nt') (combine ss us)) (sample DT_F32)) in
  (share 16 (fun us => existsb (fun i => Rle_bool (8 + bias i) (Rabs (result i us - (sval i + 16 * sval i)))) (seq 0 2)) <= 4 * exp (- (8)))%R /\
  forall i, i < 2 -> (bias i <= / 1000)%R.
Proof.
  intros Hn Hn' HD. destruct (sends_ok_both draw A nt oaddr Hn HD) as (o & HO). destruct half_ok as [_ V]. destruct (sample_len DT_F32 (or_introl eq_refl)) as [_ SN].
  set (ss := repeat (sends A nt oaddr o) 16). assert (E16 : INR 16 = 16%R) by (cbn; lra).
  assert (EE : forall i, i < 2 -> finite (f32_at (sample DT_F32) i) /\ val (f32_at (sample DT_F32) i) = sval i).
  { intros i Hi. exact (sample_elem DT_F32 i (or_introl eq_refl) ltac:(lia)). }
  assert (SV : forall i, i < 2 -> (0 <= sval i <= 5 / 4)%R) by (intros i Hi; assert (I : i = 0 \/ i = 1) by lia; destruct I as [-> | ->]; unfold sval; cbn; lra).
  assert (TV : forall i, i < 2 -> true_value i (sends A nt oaddr o) = sval i) by (intros i Hi; apply (EE i Hi)).
  assert (HS : forall i, i < 2 -> Forall (sender_ok draw i) ss /\ finite (f32_at (sample DT_F32) i)).
  { intros i Hi. split; [apply Forall_forall; intros s H; apply repeat_spec in H; subst s; apply HO; exact Hi|apply (EE i Hi)]. }
  assert (HC : forall us, outputs (length ss) us -> let cs := map (arrives AVX2 nt') (combine ss us) in
     Forall2 delivers (combine ss us) cs /\ Forall (contribution_ok (sample DT_F32)) cs /\ (forall i, i < 2 -> accumulates (numel DT_F32 (length (sample DT_F32))) cs i) /\
     chain add_step cs (sample DT_F32) (add_all cs (sample DT_F32))).
  { intros us [L F] cs. split; [apply arrives_delivers|]. split; [|split; [|apply add_all_chain]].
    - apply Forall_forall. intros c Hc. apply in_map_iff in Hc. destruct Hc as ([s u] & <- & Hin). pose proof (in_combine_l _ _ _ _ Hin) as Is.
      pose proof (in_combine_r _ _ _ _ Hin) as Iu. rewrite Forall_forall in F. specialize (F u Iu). apply repeat_spec in Is. subst s.
      apply (arrives_ok draw); auto.
    - intros i Hi. rewrite SN. split; [lia|]. left. cbn; lia. }
  assert (HZ : Forall (fun s => (Z.abs (s_zp s) <= 2 ^ 19)%Z) ss).
  { apply Forall_forall. intros s H. apply repeat_spec in H. subst s. cbn; lia. }
  assert (ER : rsum reach ss = 136%R).
  { unfold ss. rewrite rsum_repeat, E16. unfold reach. cbn [sends s_scale s_out s_zp]. rewrite V. change (code_max DT_UINT4 + Z.abs 2)%Z with 17%Z. rewrite Rabs_pos_eq by lra. lra. }
  assert (ES : rsum (fun s => val (s_scale s) ^ 2)%R ss = 4%R) by (unfold ss; rewrite rsum_repeat, E16; cbn [sends s_scale]; rewrite V; lra).
  assert (RB : (0 <= (1 + u_f32) ^ 17 - 1 <= 18 * u_f32)%R) by (unfold u_f32; lra).
  assert (HM : forall i, i < 2 -> ((Rabs (val (f32_at (sample DT_F32) i)) + rsum reach ss) * (1 + u_f32) ^ 17 <= bpow radix2 127)%R).
  { intros i Hi. destruct (EE i Hi) as [_ ->]. pose proof (SV i Hi) as S. rewrite ER, Rabs_pos_eq by apply S. set (g := ((1 + u_f32) ^ 17)%R) in *.
    assert (bpow radix2 127 >= 1024)%R by (apply Rle_ge; change 1024%R with (bpow radix2 10); apply bpow_le; lia).
    apply Rle_trans with (138 * g)%R; [apply Rmult_le_compat_r; unfold u_f32 in *; lra|unfold u_f32 in *; lra]. }
  pose proof (C77_received_every_element draw 2 ss (sample DT_F32) (fun us => map (arrives AVX2 nt') (combine ss us))
    (fun us => add_all (map (arrives AVX2 nt') (combine ss us)) (sample DT_F32)) 8 HD HZ HS HC HM ltac:(discriminate) ltac:(lra)) as T.
  cbv zeta in T. change (length ss) with 16 in T. change (16 + 1) with 17 in T. rewrite ES in T.
  match type of T with context [fun i => Rle_bool (8 + (@?b i)) _] => exists o, b end. cbv zeta. split.
  - replace (4 * exp (- (8)))%R with (INR 2 * (2 * exp (- (8 ^ 2 / (2 * 4)))))%R by (replace (8 ^ 2 / (2 * 4))%R with 8%R by lra; change (INR 2) with (1 + 1)%R; ring).
    eapply Rle_trans; [|exact T]. right. unfold share. apply all_ext. intros us. cbn [seq existsb]. fold ss.
    destruct (EE 0 ltac:(lia)) as [_ V0]. destruct (EE 1 ltac:(lia)) as [_ V1].
    assert (T0 : rsum (true_value 0) ss = (16 * sval 0)%R) by (unfold ss; rewrite rsum_repeat, TV, E16 by lia; reflexivity).
    assert (T1 : rsum (true_value 1) ss = (16 * sval 1)%R) by (unfold ss; rewrite rsum_repeat, TV, E16 by lia; reflexivity).
    rewrite T0, T1, V0, V1. reflexivity.
  - intros i Hi. cbv beta. destruct (EE i Hi) as [_ ->]. pose proof (SV i Hi) as S. rewrite ER. unfold ss. rewrite rsum_repeat, E16, (TV i Hi). cbn [sends s_scale]. rewrite V.
    rewrite (Rabs_pos_eq (sval i)), (Rabs_pos_eq (/ 2)) by lra. set (g := ((1 + u_f32) ^ 17)%R) in *.
    assert (E23 : bpow radix2 (-23) = (/ 8388608)%R) by (cbn; lra). assert (E22 : bpow radix2 (-22) = (/ 4194304)%R) by (cbn; lra). rewrite E22, E23.
    assert (G : ((g - 1) * (sval i + 136) <= (g - 1) * 138)%R) by (apply Rmult_le_compat_l; lra). unfold u_f32 in *. lra.
Qed.

(** ... and with equal outputs the sum of the sixteen machines is off by nearly 4 (a quarter per message) for every output *)
Example C77_received_equal_seeds_witness draw A nt nt' oaddr u : few nt -> few nt' -> a_draw draw -> output64 u -> exists o : Z -> mem,
  (Rabs (received 1 (add_all (map (arrives AVX2 nt') (combine (repeat (sends A nt oaddr o) 16) (repeat u 16))) (sample DT_F32)) - 85 / 4) >= 399 / 100)%R.
Proof.
  intros Hn Hn' HD Hu. destruct (sends_ok draw A nt oaddr Hn HD) as (o & HO). exists o. destruct half_ok as [_ V]. set (s := sends A nt oaddr o) in *.
  destruct (sample_elem DT_F32 1 (or_introl eq_refl) ltac:(lia)) as [F1 V1]. change (elem_at DT_F32 (sample DT_F32) 1) with (f32_at (sample DT_F32) 1) in F1, V1.
  replace (sval 1) with (5 / 4)%R in V1 by (unfold sval; cbn; lra). destruct (sample_len DT_F32 (or_introl eq_refl)) as [_ SN].
  assert (HC : forall us, outputs 16 us -> let cs := map (arrives AVX2 nt') (combine (repeat s 16) us) in
     Forall2 delivers (combine (repeat s 16) us) cs /\ Forall (contribution_ok (sample DT_F32)) cs /\ accumulates (numel DT_F32 (length (sample DT_F32))) cs 1 /\
     chain add_step cs (sample DT_F32) (add_all cs (sample DT_F32))).
  { intros us [L F] cs. split; [apply arrives_delivers|]. split; [|split; [|apply add_all_chain]].
    - apply Forall_forall. intros c Hc. apply in_map_iff in Hc. destruct Hc as ([z v] & <- & Hin). pose proof (in_combine_l _ _ _ _ Hin) as Is.
      pose proof (in_combine_r _ _ _ _ Hin) as Iu. rewrite Forall_forall in F. specialize (F v Iu). apply repeat_spec in Is. subst z. apply (arrives_ok draw); auto.
    - rewrite SN. split; [lia|]. left. cbn; lia. }
  assert (RR : reach s = (17 / 2)%R).
  { unfold reach. cbn [s sends s_scale s_out s_zp]. rewrite V. change (code_max DT_UINT4 + Z.abs 2)%Z with 17%Z. rewrite Rabs_pos_eq by lra. lra. }
  assert (TV : true_value 1 s = (5 / 4)%R) by apply true_1.
  assert (Y : scaled (val f_half) (5 / 4) = (5 / 2)%R).
  { rewrite <- TV. unfold true_value. cbn [s sends s_in s_data]. rewrite (sample_scaled DT_F32 1 (or_introl eq_refl)) by lia. unfold sval. cbn. lra. }
  pose proof (C77_received_equal_seeds draw 1 s 16 (sample DT_F32) (fun us => map (arrives AVX2 nt') (combine (repeat s 16) us))
    (fun us => add_all (map (arrives AVX2 nt') (combine (repeat s 16) us)) (sample DT_F32)) u HD HO ltac:(lia) ltac:(cbn; lia) F1 HC) as T.
  cbv zeta in T. change (16 + 1) with 17 in T. rewrite V1, RR, TV in T. change (s_scale s) with f_half in T. rewrite Y, V, frac_5_2 in T.
  assert (E16 : INR 16 = 16%R) by (cbn; lra). rewrite E16 in T. rewrite (Rabs_pos_eq (5 / 4)), (Rabs_pos_eq (/ 2)) in T by lra.
  assert (RB : (0 <= (1 + u_f32) ^ 17 - 1 <= 18 * u_f32)%R) by (unfold u_f32; lra). set (g := ((1 + u_f32) ^ 17)%R) in *.
  assert (HM : ((5 / 4 + 16 * (17 / 2)) * g <= bpow radix2 127)%R).
  { assert (bpow radix2 127 >= 1024)%R by (apply Rle_ge; change 1024%R with (bpow radix2 10); apply bpow_le; lia). unfold u_f32 in *. lra. }
  specialize (T HM Hu). rewrite Rmin_left in T by lra. replace (5 / 4 + 16 * (5 / 4))%R with (85 / 4)%R in T by lra.
  assert (E22 : bpow radix2 (-22) = (/ 4194304)%R) by (cbn; lra). rewrite E22 in T. assert (E100 : (bpow radix2 (-100) <= bpow radix2 (-22))%R) by (apply bpow_le; lia). rewrite E22 in E100.
  set (b := bpow radix2 (-100)) in *. unfold u_f32 in *. lra.
Qed.
