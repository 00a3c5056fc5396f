(** PropsStochasticRing.v -- C78: ring reduction with stochastic rounding.  The running sum travels from worker to worker as in C70, but every sender
    rounds stochastically with a generator of its own: the final sum is right on average, and the mean-square error is the sum of a quarter
    of the squared steps, where the worst case (C70) adds up the steps themselves. *)
From Coq Require Import ZArith List Lia Bool Arith ZifyBool ZifyNat Reals Lra.
From Flocq Require Import Core Binary Bits.
From Verif Require Import Base Floats Simd Dtypes Spec ApiSpec QuantKernels DequantKernels ExecFacts FloatFacts QuantFacts Context ContextFacts Api PropsQuantize
  PropsMemory FloatFacts2 PropsDequantize PropsRoundTrip RoundTripFacts PropsStochastic Rng PropsRng PropsVariance PropsAccumulate PropsIndependent PropsStochasticReduce.
Import ListNotations.
Local Open Scope R_scope.

(** the value of element [i] of an f32 tensor *)
Definition value (i : nat) (m : mem) : R := val (f32_at m i).

(** A ring run.  [hops] lists the receivers: their own tensors and a bound of the step the message to them is quantized with; [b] is the tensor of
    the first worker, and [final us] what the last worker holds when the generators of the senders gave us = [u1; u2; ...].  The sender, its
    parameters and CPUs may depend on what has arrived so far: at every point of the ring, whatever outputs led there, some sender quantizes the
    running sum with stochastic rounding, the message arrives at the receiver, who adds it to its own tensor; the result is the next running sum.
    Element [i] is not clipped, and its running sums and own values are at most [B]. *)
Inductive ring_run (draw : Z -> f32) (i : nat) (B : R) : list (mem * R) -> mem -> (list Z -> mem) -> Prop :=
| ring_end b final : final [] = b -> ring_run draw i B [] b final
| ring_hop own S rest b s c next final :
    s_in s = DT_F32 -> s_data s = b -> sender_ok draw i s -> (Z.abs (s_zp s) <= 2 ^ 19)%Z -> Rabs (val (s_scale s)) <= S ->
    finite (f32_at own i) -> Rabs (value i own) <= B -> Rabs (value i b) <= B ->
    (forall u, output64 u -> delivers (s, u) (c u)) ->
    (forall u, output64 u -> contribution_ok own (c u)) ->
    (forall u, output64 u -> accumulates (numel DT_F32 (length own)) [c u] i) ->
    (forall u, output64 u -> add_step (c u) own (Ok (next u))) ->
    (forall u, output64 u -> ring_run draw i B rest (next u) (fun us => final (u :: us))) ->
    ring_run draw i B ((own, S) :: rest) b final.

(** ** One hop *)
Lemma sent_near draw i s u : a_draw draw -> sender_ok draw i s -> output64 u ->
  Rabs (sent i s u - true_value i s) <= 2 * Rabs (val (s_scale s)) + Rabs (true_value i s) * bpow radix2 (-22).
Proof.
  intros HD (Hs & Hz & HI & HK & Hi & HR) Hu. pose proof (scaled_rel (s_scale s) (true_value i s) Hs) as SR. pose proof (normal_good _ Hs) as Hg.
  destruct (share_unclipped _ _ _ _ _ _ _ _ _ _ _ i HD Hg Hz HI HK Hi HR) as (N & HN & HB & HC). fold (true_value i s) in HB, HC.
  unfold sent. rewrite (HC u Hu). clear HC.
  set (y := scaled (val (s_scale s)) (true_value i s)) in *. set (w := val (s_scale s)) in *. set (x := true_value i s) in *.
  pose proof (frac_bounds y) as [F0 F1].
  assert (D : (IZR (away y) = IZR (toward y) + 1 /\ y = IZR (toward y) + frac y) \/ (IZR (away y) = IZR (toward y) - 1 /\ y = IZR (toward y) - frac y)).
  { unfold away, toward, frac. destruct (Rlt_bool_spec y 0) as [L|L].
    - right. rewrite !opp_IZR, plus_IZR, (Rabs_left y) by auto. split; ring.
    - left. rewrite plus_IZR, (Rabs_pos_eq y) by auto. split; ring. }
  set (k := if (u <? N)%Z then away y else toward y).
  assert (K : Rabs (IZR k - y) <= 1). { apply Rabs_le. unfold k. destruct (u <? N)%Z, D as [[E1 E2]|[E1 E2]]; lra. }
  assert (Nw : w <> 0).
  { destruct Hs as (_ & L & _). fold w in L. intros E. rewrite E, Rabs_R0 in L. pose proof (bpow_gt_0 radix2 (-126)). lra. }
  assert (B2 : Rabs (w * y - x) <= Rabs x * (3 * u32r) + Rabs w * tiny).
  { replace (w * y - x) with (w * (y - x / w)) by (field; auto). rewrite Rabs_mult.
    apply Rle_trans with (Rabs w * (3 * u32r * Rabs (x / w) + tiny)); [apply Rmult_le_compat_l; [apply Rabs_pos|exact SR]|].
    right. unfold Rdiv. rewrite Rabs_mult, Rabs_inv. field. apply Rabs_no_R0. auto. }
  replace (IZR k * w - x) with (w * (IZR k - y) + (w * y - x)) by ring. eapply Rle_trans; [apply Rabs_triang|]. rewrite Rabs_mult.
  assert (T1 : tiny <= 1) by (unfold tiny; change 1 with (bpow radix2 0); apply bpow_le; lia).
  assert (T2 : 3 * u32r <= bpow radix2 (-22)) by (unfold u32r; cbn; lra).
  assert (A1 : Rabs w * Rabs (IZR k - y) <= Rabs w * 1) by (apply Rmult_le_compat_l; [apply Rabs_pos|exact K]).
  assert (A2 : Rabs w * tiny <= Rabs w * 1) by (apply Rmult_le_compat_l; [apply Rabs_pos|exact T1]).
  assert (A3 : Rabs x * (3 * u32r) <= Rabs x * bpow radix2 (-22)) by (apply Rmult_le_compat_l; [apply Rabs_pos|exact T2]). lra.
Qed.

(** what the receiver gets, whatever the outputs: the exact sum of its own value and the value sent, up to two f32 roundings *)
Lemma hop_received draw i B own s c o u : a_draw draw -> sender_ok draw i s -> (Z.abs (s_zp s) <= 2 ^ 19)%Z -> finite (f32_at own i) -> output64 u ->
  delivers (s, u) c -> contribution_ok own c -> accumulates (numel DT_F32 (length own)) [c] i -> add_step c own (Ok o) ->
  Rabs (value i own) + Rabs (sent i s u) <= 5 * B -> B <= bpow radix2 124 ->
  Rabs (value i o - (value i own + sent i s u)) <= B * bpow radix2 (-20).
Proof.
  intros HD HS HZ F Hu D CO AC ST HM HB. pose proof D as (E1 & E2 & E3 & _). cbn [fst] in *.
  assert (AA : Forall accurate [c]) by (apply Forall_cons; [unfold accurate; rewrite E2, E3; split; [apply HS|exact HZ]|apply Forall_nil]).
  assert (CH : chain add_step [c] own (Ok o)) by (eapply chain_next; [exact ST|constructor]).
  destruct (C55_accumulated_error [c] own (Ok o) (Forall_cons _ CO (Forall_nil _)) AA CH) as (o' & E & _ & X). injection E as <-.
  specialize (X i AC F). cbv zeta in X. unfold rsum in X. cbn [fold_right length Nat.add] in X. rewrite (delivered draw i s u c HD HS Hu D), !Rplus_0_r in X.
  change (val (f32_at own i)) with (value i own) in X. change (val (f32_at o i)) with (value i o) in X.
  set (m := Rabs (value i own) + Rabs (sent i s u)) in *.
  assert (Pm : 0 <= m) by (unfold m; pose proof (Rabs_pos (value i own)); pose proof (Rabs_pos (sent i s u)); lra).
  assert (E127 : bpow radix2 127 = 8 * bpow radix2 124) by (change 127%Z with (3 + 124)%Z; rewrite bpow_plus; reflexivity).
  assert (E20 : bpow radix2 (-20) = / 1048576) by (cbn; lra).
  destruct X as [_ X]; [rewrite E127; unfold u_f32; lra|]. eapply Rle_trans; [exact X|]. rewrite E20. unfold u_f32. lra.
Qed.

Definition all_hops (hops : list (mem * R)) (S : R) : Prop := Forall (fun h => snd h <= S) hops.
Definition own_sum (i : nat) (hops : list (mem * R)) : R := rsum (fun h => value i (fst h)) hops.
Definition quarter_steps (hops : list (mem * R)) : R := / 4 * rsum (fun h => snd h ^ 2) hops.

(** mean and mean square of the change one hop makes, with respect to the exact sum *)
Lemma hop_moments draw i B Sm own S b s c next : a_draw draw -> 0 <= Sm <= B -> B <= bpow radix2 124 -> S <= Sm ->
  s_in s = DT_F32 -> s_data s = b -> sender_ok draw i s -> (Z.abs (s_zp s) <= 2 ^ 19)%Z -> Rabs (val (s_scale s)) <= S ->
  finite (f32_at own i) -> Rabs (value i own) <= B -> Rabs (value i b) <= B ->
  (forall u, output64 u -> delivers (s, u) (c u)) -> (forall u, output64 u -> contribution_ok own (c u)) ->
  (forall u, output64 u -> accumulates (numel DT_F32 (length own)) [c u] i) -> (forall u, output64 u -> add_step (c u) own (Ok (next u))) ->
  let xi u := value i (next u) - (value i own + value i b) in
  (forall u, output64 u -> Rabs (xi u) <= 2 * Sm + B * bpow radix2 (-19)) /\
  Rabs (mean_over_outputs xi) <= B * bpow radix2 (-19) /\
  mean_over_outputs (fun u => xi u ^ 2) <= / 4 * S ^ 2 + B * bpow radix2 (-18) * (Sm + B * bpow radix2 (-21)).
Proof.
  intros HD [S0 SB] HB SS E1 E2 HS HZ HW F BO BB HDl HC HA HST xi.
  destruct (one_sender draw i s HD HS) as [M1 V1].
  assert (EV : true_value i s = value i b) by (unfold true_value; rewrite E1, E2; reflexivity). rewrite EV in M1.
  assert (NEAR : forall u, output64 u -> Rabs (sent i s u - value i b) <= 2 * Rabs (val (s_scale s)) + Rabs (value i b) * bpow radix2 (-22)).
  { intros u Hu. rewrite <- EV. apply (sent_near draw); auto. }
  set (w := Rabs (val (s_scale s))) in *. assert (W2 : val (s_scale s) ^ 2 = w ^ 2) by (unfold w; rewrite pow2_abs; reflexivity). rewrite W2 in V1.
  assert (W0 : 0 <= w) by apply Rabs_pos. clearbody w. set (x := value i b) in *.
  assert (E24 : bpow radix2 (-18) = / 262144 /\ bpow radix2 (-19) = / 524288 /\ bpow radix2 (-20) = / 1048576 /\ bpow radix2 (-21) = / 2097152 /\ bpow radix2 (-22) = / 4194304 /\ bpow radix2 (-23) = / 8388608).
  { repeat split; cbn; lra. }
  destruct E24 as (E18 & E19 & E20 & E21 & E22 & E23).
  assert (DL : forall u, output64 u -> Rabs (sent i s u - x) <= 2 * Sm + B * / 4194304).
  { intros u Hu. specialize (NEAR u Hu). rewrite E22 in NEAR. lra. }
  assert (RC : forall u, output64 u -> Rabs (value i (next u) - (value i own + sent i s u)) <= B * / 1048576).
  { intros u Hu. rewrite <- E20. apply (hop_received draw i B own s (c u)); auto.
    specialize (NEAR u Hu). rewrite E22 in NEAR. pose proof (Rabs_triang (sent i s u - x) x) as T. replace (sent i s u - x + x) with (sent i s u) in T by ring. lra. }
  set (de u := sent i s u - x).
  assert (X1 : forall u, output64 u -> Rabs (xi u - de u) <= B * / 1048576).
  { intros u Hu. unfold xi, de. replace (value i (next u) - (value i own + x) - (sent i s u - x)) with (value i (next u) - (value i own + sent i s u)) by ring. auto. }
  assert (MD : mean_over_outputs de = mean1 i s - x).
  { unfold de. rewrite (mean_ext _ (fun u => 1 * sent i s u + (- x) * (fun _ : Z => 1) u)) by (intros; ring).
    rewrite (mean_lin (sent i s) (fun _ => 1) 1 (- x)), mean_const. unfold mean1. ring. }
  assert (MD2 : mean_over_outputs (fun u => de u ^ 2) = var1 i s + (mean1 i s - x) ^ 2).
  { unfold var1. set (m := mean1 i s) in *.
    rewrite (mean_ext (fun u => de u ^ 2) (fun u => 1 * (fun u => (sent i s u - m) ^ 2) u + 1 * (fun u => 2 * (m - x) * de u + (- (m - x) ^ 2) * (fun _ : Z => 1) u) u)).
    - rewrite (mean_lin (fun u => (sent i s u - m) ^ 2) (fun u => 2 * (m - x) * de u + (- (m - x) ^ 2) * (fun _ : Z => 1) u)), (mean_lin de (fun _ => 1)), mean_const, MD. ring.
    - intros u _. unfold de. ring. }
  set (bi := mean1 i s - x) in *. assert (BI : Rabs bi <= B * / 2097152) by (rewrite E22, E23 in M1; lra).
  clear NEAR M1.
  split; [|split].
  - intros u Hu. specialize (DL u Hu). specialize (X1 u Hu). fold (de u) in DL. rewrite E19. pose proof (Rabs_triang (xi u - de u) (de u)) as T.
    replace (xi u - de u + de u) with (xi u) in T by ring. lra.
  - assert (U : mean_over_outputs xi <= bi + B * / 1048576).
    { apply Rle_trans with (mean_over_outputs (fun u => 1 * de u + (B * / 1048576) * (fun _ : Z => 1) u)).
      - apply mean_le. intros u Hu. specialize (X1 u Hu). apply Rabs_le_inv in X1. lra.
      - rewrite (mean_lin de (fun _ => 1)), mean_const, MD. lra. }
    assert (L : bi - B * / 1048576 <= mean_over_outputs xi).
    { apply Rle_trans with (mean_over_outputs (fun u => 1 * de u + (- (B * / 1048576)) * (fun _ : Z => 1) u)).
      - rewrite (mean_lin de (fun _ => 1)), mean_const, MD. lra.
      - apply mean_le. intros u Hu. specialize (X1 u Hu). apply Rabs_le_inv in X1. lra. }
    apply Rabs_le_inv in BI. rewrite E19. apply Rabs_le. lra.
  - set (r := B * / 1048576) in *. assert (R0 : 0 <= r) by (unfold r; lra).
    set (d := 2 * Sm + B * / 4194304) in *. assert (D0 : 0 <= d) by (unfold d; lra).
    apply Rle_trans with (mean_over_outputs (fun u => 1 * (fun u => de u ^ 2) u + (2 * d * r + r ^ 2) * (fun _ : Z => 1) u)).
    + apply mean_le. intros u Hu. specialize (X1 u Hu). specialize (DL u Hu). fold (de u) in DL.
      replace (xi u ^ 2) with (de u ^ 2 + 2 * (de u * (xi u - de u)) + (xi u - de u) ^ 2) by ring.
      assert (P : de u * (xi u - de u) <= d * r).
      { eapply Rle_trans; [apply Rle_abs|]. rewrite Rabs_mult. apply Rmult_le_compat; auto using Rabs_pos. }
      assert (Q : (xi u - de u) ^ 2 <= r ^ 2) by (rewrite <- (pow2_abs (xi u - de u)); apply pow_incr; split; [apply Rabs_pos|exact X1]). lra.
    + rewrite (mean_lin (fun u => de u ^ 2) (fun _ => 1)), mean_const, MD2. rewrite E18, E21.
      assert (W3 : w ^ 2 <= S ^ 2) by (apply pow_incr; lra).
      assert (B3 : bi ^ 2 <= (B * / 2097152) ^ 2) by (rewrite <- (pow2_abs bi); apply pow_incr; split; [apply Rabs_pos|exact BI]).
      assert (BS : 0 <= B * Sm) by (apply Rmult_le_pos; lra). assert (B2 : 0 <= B * B) by (apply Rmult_le_pos; lra).
      replace (2 * d * r + r ^ 2) with (B * Sm * / 262144 + B * B * (2 * / 4194304 * / 1048576 + / 1048576 * / 1048576)) by (unfold d, r; field).
      replace ((B * / 2097152) ^ 2) with (B * B * (/ 2097152 * / 2097152)) in B3 by ring.
      replace (B * / 262144 * (Sm + B * / 2097152)) with (B * Sm * / 262144 + B * B * (/ 262144 * / 2097152)) by ring. lra.
Qed.

(** ** The whole ring *)
Lemma ring_moments draw i B Sm hops b final : a_draw draw -> 0 <= Sm <= B -> B <= bpow radix2 124 -> ring_run draw i B hops b final -> all_hops hops Sm ->
  let m := INR (length hops) in
  let tau := B * bpow radix2 (-19) in
  Rabs (mean_over_all (length hops) (fun us => value i (final us)) - (value i b + own_sum i hops)) <= m * tau /\
  forall t, mean_over_all (length hops) (fun us => (value i (final us) - (t + own_sum i hops)) ^ 2)
    <= (value i b - t) ^ 2 + 2 * Rabs (value i b - t) * (m * tau) + quarter_steps hops + m ^ 2 * (B * bpow radix2 (-18) * (Sm + B * bpow radix2 (-19))).
Proof.
  intros HD S0 HB HR. induction HR as [b final E|own S rest b s c next final I1 I2 HS HZ HW F BO BB HDl HC HA HST HRun IH]; intros HH m tau.
  - cbn [length mean_over_all]. rewrite E. unfold m, own_sum, quarter_steps, rsum. cbn [length INR fold_right]. split; [|intros t].
    + rewrite Rplus_0_r, Rminus_diag_eq, Rabs_R0 by reflexivity. lra.
    + right. ring.
  - inversion HH as [|? ? HS1 HH']; subst. cbn [snd] in HS1.
    destruct (hop_moments draw i B Sm own S (s_data s) s c next HD S0 HB HS1 I1 eq_refl HS HZ HW F BO BB HDl HC HA HST) as (X1 & X2 & X3).
    set (xi u := value i (next u) - (value i own + value i (s_data s))) in *. fold tau in X1, X2.
    assert (Y1 : forall u, output64 u -> Rabs (xi u) <= 2 * Sm + tau) by exact X1.
    assert (Y2 : Rabs (mean_over_outputs xi) <= tau) by exact X2.
    assert (Y3 : mean_over_outputs (fun u => xi u ^ 2) <= / 4 * S ^ 2 + B * bpow radix2 (-18) * (Sm + B * bpow radix2 (-21))) by exact X3.
    clear X1 X2 X3. rename Y1 into X1, Y2 into X2, Y3 into X3.
    set (x := value i (s_data s)) in *. set (o := own_sum i rest) in *. set (k := length rest) in *. set (m' := INR k) in *.
    assert (Em : m = m' + 1) by (unfold m, m'; cbn [length]; rewrite S_INR; reflexivity).
    assert (EO : own_sum i ((own, S) :: rest) = value i own + o) by (unfold own_sum, o; rewrite rsum_cons; reflexivity).
    assert (EQ : quarter_steps ((own, S) :: rest) = / 4 * S ^ 2 + quarter_steps rest) by (unfold quarter_steps; rewrite rsum_cons; cbn [snd]; ring).
    assert (M0 : 0 <= m') by apply pos_INR. assert (T0 : 0 <= tau) by (unfold tau; apply Rmult_le_pos; [lra|apply bpow_ge_0]).
    rewrite EO, EQ. cbn [length mean_over_all]. fold k. split.
    + assert (U : mean_over_outputs (fun u => mean_over_all k (fun us => value i (final (u :: us)))) <= mean_over_outputs xi + (value i own + x + o + m' * tau)).
      { apply Rle_trans with (mean_over_outputs (fun u => 1 * xi u + (value i own + x + o + m' * tau) * (fun _ : Z => 1) u)).
        - apply mean_le. intros u Hu. destruct (IH u Hu HH') as [I _]. fold o m' tau in I. apply Rabs_le_inv in I. unfold xi. lra.
        - rewrite (mean_lin xi (fun _ => 1)), mean_const. lra. }
      assert (L : mean_over_outputs xi + (value i own + x + o - m' * tau) <= mean_over_outputs (fun u => mean_over_all k (fun us => value i (final (u :: us))))).
      { apply Rle_trans with (mean_over_outputs (fun u => 1 * xi u + (value i own + x + o - m' * tau) * (fun _ : Z => 1) u)).
        - rewrite (mean_lin xi (fun _ => 1)), mean_const. lra.
        - apply mean_le. intros u Hu. destruct (IH u Hu HH') as [I _]. fold o m' tau in I. apply Rabs_le_inv in I. unfold xi. lra. }
      apply Rabs_le_inv in X2. rewrite Em. apply Rabs_le. lra.
    + intros t. set (d := x - t). set (q := quarter_steps rest). set (w := B * bpow radix2 (-18) * (Sm + tau)).
      assert (P : 0 <= m' * tau) by (apply Rmult_le_pos; auto).
      apply Rle_trans with (mean_over_outputs (fun u => 1 * (fun u => xi u ^ 2) u + 1 * (fun u => 2 * d * xi u + (d ^ 2 + 2 * (Rabs d + (2 * Sm + tau)) * (m' * tau) + q + m' ^ 2 * w) * (fun _ : Z => 1) u) u)).
      * apply mean_le. intros u Hu. destruct (IH u Hu HH') as [_ I]. specialize (I (t + value i own)). fold o m' tau q w in I.
        rewrite (all_ext k _ (fun us => (value i (final (u :: us)) - (t + value i own + o)) ^ 2)) by (intros us; f_equal; ring).
        eapply Rle_trans; [exact I|]. replace (value i (next u) - (t + value i own)) with (xi u + d) by (unfold xi, d; ring).
        assert (A : Rabs (xi u + d) * (m' * tau) <= (Rabs d + (2 * Sm + tau)) * (m' * tau)).
        { apply Rmult_le_compat_r; [exact P|]. pose proof (Rabs_triang (xi u) d). specialize (X1 u Hu). lra. }
        replace ((xi u + d) ^ 2) with (xi u ^ 2 + 2 * d * xi u + d ^ 2) by ring. cbv beta. lra.
      * rewrite (mean_lin (fun u => xi u ^ 2) (fun u => 2 * d * xi u + (d ^ 2 + 2 * (Rabs d + (2 * Sm + tau)) * (m' * tau) + q + m' ^ 2 * w) * (fun _ : Z => 1) u)),
          (mean_lin xi (fun _ => 1)), mean_const.
        assert (A1 : d * mean_over_outputs xi <= Rabs d * tau).
        { eapply Rle_trans; [apply Rle_abs|]. rewrite Rabs_mult. apply Rmult_le_compat_l; [apply Rabs_pos|exact X2]. }
        set (e := Rabs d) in *. fold tau. fold w. rewrite Em.
        assert (A2 : B * bpow radix2 (-18) * (Sm + B * bpow radix2 (-21)) + 2 * (2 * Sm + tau) * (m' * tau) <= (2 * m' + 1) * w).
        { assert (E24 : bpow radix2 (-18) = / 262144 /\ bpow radix2 (-19) = / 524288 /\ bpow radix2 (-21) = / 2097152) by (repeat split; cbn; lra).
          destruct E24 as (E18 & E19 & E21). unfold w, tau. rewrite E18, E19, E21.
          assert (BS : 0 <= B * Sm) by (apply Rmult_le_pos; lra). assert (B2 : 0 <= B * B) by (apply Rmult_le_pos; lra).
          assert (BS' : 0 <= m' * (B * Sm)) by (apply Rmult_le_pos; lra). assert (B2' : 0 <= m' * (B * B)) by (apply Rmult_le_pos; lra).
          replace (2 * (2 * Sm + B * / 524288) * (m' * (B * / 524288))) with (m' * (B * Sm) * (4 * / 524288) + m' * (B * B) * (2 * (/ 524288 * / 524288))) by ring.
          replace ((2 * m' + 1) * (B * / 262144 * (Sm + B * / 524288))) with
            (m' * (B * Sm) * (2 * / 262144) + m' * (B * B) * (2 * (/ 262144 * / 524288)) + B * Sm * / 262144 + B * B * (/ 262144 * / 524288)) by ring.
          replace (B * / 262144 * (Sm + B * / 2097152)) with (B * Sm * / 262144 + B * B * (/ 262144 * / 2097152)) by ring. lra. }
        replace ((m' + 1) ^ 2 * w) with (m' ^ 2 * w + (2 * m' + 1) * w) by ring.
        replace (2 * (e + (2 * Sm + tau)) * (m' * tau)) with (2 * e * (m' * tau) + 2 * (2 * Sm + tau) * (m' * tau)) by ring.
        replace (2 * e * ((m' + 1) * tau)) with (2 * e * (m' * tau) + 2 * (e * tau)) by ring. lra.
Qed.

Theorem C78_stochastic_ring draw i B S x0 hops final :
  a_draw draw -> 0 <= S <= B -> B <= bpow radix2 124 -> ring_run draw i B hops x0 final -> Forall (fun h => snd h <= S) hops ->
  let m := length hops in
  let truth := value i x0 + rsum (fun h => value i (fst h)) hops in
  Rabs (mean_over_all m (fun us => value i (final us)) - truth) <= INR m * (B * bpow radix2 (-19)) /\
  mean_over_all m (fun us => (value i (final us) - truth) ^ 2)
    <= / 4 * rsum (fun h => snd h ^ 2) hops + INR m ^ 2 * (B * bpow radix2 (-18) * (S + B * bpow radix2 (-19))).
Proof.
  intros HD HS HB HR HH m truth. destruct (ring_moments draw i B S hops x0 final HD HS HB HR HH) as [M V]. split; [exact M|].
  specialize (V (value i x0)). rewrite Rminus_diag_eq, Rabs_R0 in V by reflexivity. unfold quarter_steps in V. fold m in V.
  eapply Rle_trans; [exact V|]. right. ring.
Qed.
