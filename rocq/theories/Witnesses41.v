(** Witnesses41.v -- concrete instances of PropsStochasticTail.v (C77, C78). *)
From Coq Require Import ZArith List Lia Bool Arith ZifyBool ZifyNat Reals Lra.
From Flocq Require Import Core Binary Bits.
From Verif Require Import Base Floats Dtypes Spec ApiSpec FloatFacts Context Api PropsQuantize PropsMemory PropsRoundTrip FloatFacts2 PropsStochastic Rng PropsRng PropsVariance PropsAccumulate
  PropsIndependent PropsStochasticReduce PropsStochasticRing PropsStochasticTail Witnesses Witnesses20 Witnesses38 Witnesses40.
Import ListNotations.
Open Scope nat_scope.

(** 64 machines send an element with step 1/2: their average is off by a quarter for at most 2*exp(-8) < 1/100 of all combinations *)
Example C77_concentration_witness draw A nt oaddr : few nt -> a_draw draw -> exists o : Z -> mem,
  let ss := repeat (sends A nt oaddr o) 64 in
  let average us := (total 1 ss us / INR 64)%R in
  (share 64 (fun us => Rle_bool (/ 4) (Rabs (average us - mean_over_all 64 average))) <= 2 * exp (- 8))%R /\ (2 * exp (- 8) < / 100)%R.
Proof.
  intros Hn HD. destruct (sends_ok draw A nt oaddr Hn HD) as (o & HO). exists o. intros ss average. destruct half_ok as [_ V].
  assert (HS : Forall (sender_ok draw 1) ss) by (apply Forall_forall; intros s H; apply repeat_spec in H; subst s; exact HO).
  assert (HL : Forall (fun s => (Rabs (val (s_scale s)) <= / 2)%R) ss).
  { apply Forall_forall. intros s H. apply repeat_spec in H. subst s. change (s_scale (sends A nt oaddr o)) with f_half. rewrite V, Rabs_pos_eq; lra. }
  assert (E64 : INR 64 = 64%R) by (cbn; lra). split.
  - pose proof (C77_average_concentration draw 1 ss (/ 2) (/ 4) HD HS HL ltac:(discriminate) ltac:(lra)) as C. cbv zeta in C. change (length ss) with 64 in C. fold average in C.
    eapply Rle_trans; [exact C|]. right. f_equal. f_equal. rewrite E64. field.
  - pose proof (exp_ineq1_le 1) as E1. assert (E8 : exp 8 = (exp 1 * exp 1 * (exp 1 * exp 1) * (exp 1 * exp 1 * (exp 1 * exp 1)))%R) by (rewrite <- !exp_plus; f_equal; ring).
    assert (E2 : (4 <= exp 1 * exp 1)%R) by (replace 4%R with (2 * 2)%R by ring; apply Rmult_le_compat; lra).
    assert (E4 : (16 <= exp 1 * exp 1 * (exp 1 * exp 1))%R) by (replace 16%R with (4 * 4)%R by ring; apply Rmult_le_compat; lra).
    assert (E256 : (256 <= exp 8)%R) by (rewrite E8; replace 256%R with (16 * 16)%R by ring; apply Rmult_le_compat; lra).
    replace (exp (-8)) with (/ exp 8)%R by (rewrite <- exp_Ropp; f_equal; lra). assert (/ exp 8 <= / 256)%R by (apply Rinv_le; lra). lra.
Qed.
(** rings of ten hops with step 1/2 and tensors of n elements (Witnesses40): one element is off by more than 5.001 for at most 2*exp(-5) of all
    combinations, some element by more than 10.001 for at most n*2*exp(-20); the squared error of the tensor is on average at most 0.64*n *)
Example C78_concentration_witness n draw owns b i : (Z.of_nat n <= 2 ^ 20)%Z -> a_draw draw -> tensor n 1 b -> Forall (tensor n 1) owns -> length owns = 10 -> i < n ->
  exists final, let hops := map (fun own => (own, (/ 2)%R)) owns in
  (forall i, i < n -> ring_run draw i 40 hops b final) /\
  let truth i := (value i b + rsum (value i) owns)%R in
  let margin := (INR 10 * (40 * bpow radix2 (-19)))%R in
  (share 10 (fun us => Rle_bool (5 + margin) (Rabs (value i (final us) - truth i))) <= 2 * exp (- 5))%R /\
  (share 10 (fun us => existsb (fun i => Rle_bool (10 + margin) (Rabs (value i (final us) - truth i))) (seq 0 n)) <= INR n * (2 * exp (- 20)))%R /\
  (mean_over_all 10 (fun us => rsum (fun i => (value i (final us) - truth i) ^ 2) (seq 0 n)) <= INR n * (64 / 100))%R.
Proof.
  intros Hn HD HB HO HL Hi. set (hops := map (fun own => (own, (/ 2)%R)) owns). exists (ring_final n draw hops b). cbv zeta. fold hops.
  destruct (ring_ten n Hn draw owns b HD HB HO HL) as (LH & HH & HR). fold hops in LH, HH, HR. split; [exact HR|].
  assert (NE : hops <> []) by (intros E; rewrite E in LH; discriminate).
  pose proof (C78_concentration draw i 40 (/ 2) b hops _ 5 HD ltac:(lra) (forty n) (HR i Hi) HH NE ltac:(lra)) as C.
  pose proof (C78_every_element draw n 40 (/ 2) b hops _ 10 HD ltac:(lra) (forty n) HR HH NE ltac:(lra)) as D.
  pose proof (C78_tensor_error draw n 40 (/ 2) b hops _ HD ltac:(lra) (forty n) HR HH) as T.
  cbv zeta in C, D, T. rewrite LH in C, D, T. set (fin := ring_final n draw hops b) in *. clearbody fin.
  assert (ES : rsum (fun h : mem * R => (snd h ^ 2)%R) hops = (5 / 2)%R) by (unfold hops; rewrite ring_steps, HL; cbn; lra).
  assert (EO : forall k, rsum (fun h : mem * R => value k (fst h)) hops = rsum (value k) owns) by (intros k; apply ring_owns).
  rewrite ES in C, D, T. rewrite EO in C. split; [|split].
  - eapply Rle_trans; [exact C|]. right. f_equal. f_equal. field.
  - set (f1 := fun us => existsb (fun i => Rle_bool (10 + INR 10 * (40 * bpow radix2 (-19))) (Rabs (value i (fin us) - (value i b + rsum (value i) owns)))) (seq 0 n)).
    set (f2 := fun us => existsb (fun i => Rle_bool (10 + INR 10 * (40 * bpow radix2 (-19))) (Rabs (value i (fin us) - (value i b + rsum (fun h : mem * R => value i (fst h)) hops)))) (seq 0 n)) in D.
    assert (X : forall us, f1 us = f2 us).
    { intros us. unfold f1, f2. clear -EO. induction (seq 0 n) as [|k l IH]; [reflexivity|]. cbn [existsb]. rewrite IH, EO. reflexivity. }
    assert (Y : share 10 f1 = share 10 f2) by (unfold share; apply all_ext; intros us; rewrite X; reflexivity).
    apply (Rle_trans _ _ _ (Req_le _ _ Y)). eapply Rle_trans; [exact D|]. right. f_equal. f_equal. f_equal. field.
  - set (f1 := fun us => rsum (fun i => ((value i (fin us) - (value i b + rsum (value i) owns)) ^ 2)%R) (seq 0 n)).
    set (f2 := fun us => rsum (fun i => ((value i (fin us) - (value i b + rsum (fun h : mem * R => value i (fst h)) hops)) ^ 2)%R) (seq 0 n)) in T.
    assert (X : forall us, f1 us = f2 us).
    { intros us. unfold f1, f2. clear -EO. induction (seq 0 n) as [|k l IH]; [reflexivity|]. rewrite !rsum_cons, IH, EO. reflexivity. }
    apply (Rle_trans _ _ _ (Req_le _ _ (all_ext 10 f1 f2 X))). eapply Rle_trans; [exact T|]. apply Rmult_le_compat_l; [apply pos_INR|].
    assert (E10 : INR 10 = 10%R) by (cbn; lra). assert (E19 : bpow radix2 (-19) = (/ 524288)%R) by (cbn; lra). assert (E18 : bpow radix2 (-18) = (/ 262144)%R) by (cbn; lra).
    rewrite E10, E18, E19. lra.
Qed.
(** ... and with equal generator outputs the average of any number of messages is off by 0.249 or more, always *)
Example C77_always_off_witness draw A nt oaddr n : few nt -> a_draw draw -> 0 < n -> exists o : Z -> mem,
  forall u, output64 u -> (Rabs (total 1 (repeat (sends A nt oaddr o) n) (repeat u n) / INR n - 5 / 4) >= 249 / 1000)%R.
Proof.
  intros Hn HD H0. destruct (sends_ok draw A nt oaddr Hn HD) as (o & HO). exists o. intros u Hu. destruct half_ok as [_ V].
  pose proof (C77_equal_seeds_always_off draw 1 (sends A nt oaddr o) n u HD HO H0 Hu) as B. cbv zeta in B. change (s_scale (sends A nt oaddr o)) with f_half in B.
  assert (Y : scaled (val f_half) (true_value 1 (sends A nt oaddr o)) = (5 / 2)%R).
  { unfold true_value. cbn [sends s_in s_data]. rewrite (sample_scaled DT_F32 1 (or_introl eq_refl)) by lia. unfold sval. cbn. lra. }
  rewrite Y, V, frac_5_2, true_1 in B. rewrite (Rabs_pos_eq (/ 2)), (Rabs_pos_eq (5 / 4)) in B by lra. rewrite Rmin_left in B by lra.
  assert (E22 : bpow radix2 (-22) = (/ 4194304)%R) by (cbn; lra). rewrite E22 in B.
  assert (E100 : (bpow radix2 (-100) <= / 4194304)%R) by (rewrite <- E22; apply bpow_le; lia). lra.
Qed.
