(** Witnesses40.v -- a concrete family of rings for PropsStochasticRing.v (C78): tensors of n elements, uint8 messages with step 1/2 and zero
    point 128, sent from AVX2 to AVX-512 workers; any tensors of values at most 1 and up to ten hops. *)
From Coq Require Import ZArith List Lia Bool Arith ZifyBool ZifyNat Reals Lra.
From Flocq Require Import Core Binary Bits.
From Verif Require Import Base Floats Simd Dtypes Spec ApiSpec QuantKernels DequantKernels ExecFacts FloatFacts QuantFacts QuantKernelFacts QuantGenericFacts DequantFacts DequantGenericFacts
  Context ContextFacts QuantizeFacts DequantizeFacts Api PropsQuantize Schedule
  PropsMemory PropsDequantize PropsRoundTrip RoundTripFacts FloatFacts2 PropsStochastic Rng PropsRng PropsVariance PropsAccumulate PropsReplicas PropsAnyInput PropsIndependent PropsStochasticReduce
  PropsStochasticRing Witnesses.
Import ListNotations.
Open Scope nat_scope.

Section Ring.
Context (n : nat) (Hn : (Z.of_nat n <= 2 ^ 20)%Z).
Definition tensor (K : R) (b : mem) : Prop := length b = 4 * n /\ Forall is_byte b /\ forall i, i < n -> finite (f32_at b i) /\ (Rabs (value i b) <= K)%R.
Definition ring_buffer : mem := repeat 0xaa%Z n.
Definition ring_call (draw : Z -> f32) (b : mem) (u : Z) := quantize_call AVX2 2 0 DT_F32 DT_UINT8 f_half 128 RM_STOCHASTIC (draw u) b ring_buffer.
Definition ring_codes draw b u : mem := match run_seq b ring_buffer (ring_call draw b u) with Ok m => m | _ => [] end.
Definition ring_sender draw b : PropsIndependent.sender :=
  {| s_arch := fun _ => AVX2; s_threads := fun _ => 2; s_addr := fun _ => 0%Z; s_in := DT_F32; s_out := DT_UINT8; s_scale := f_half; s_zp := 128; s_data := b;
     s_buffer := fun _ => ring_buffer; s_codes := ring_codes draw b |}.
Definition ring_arrival draw b u : contribution :=
  {| c_arch := AVX512F; c_threads := 3; c_oaddr := 16; c_type := DT_UINT8; c_scale := f_half; c_zp := 128; c_bytes := ring_codes draw b u ++ [0%Z]; c_size := length (ring_codes draw b u) |}.
Definition ring_add (c : contribution) (own : mem) := dequantize_call (c_arch c) (c_threads c) (c_oaddr c) (c_type c) DT_F32 (c_scale c) (c_zp c) RO_ADD (c_size c) own.
Definition ring_next draw own b u : mem := match run_seq (c_bytes (ring_arrival draw b u)) own (ring_add (ring_arrival draw b u) own) with Ok m => m | _ => [] end.
Fixpoint ring_final draw (hops : list (mem * R)) b us : mem :=
  match hops, us with (own, _) :: rest, u :: us => ring_final draw rest (ring_next draw own b u) us | _, _ => b end.

Lemma n_numel (b : mem) : length b = 4 * n -> numel DT_F32 (length b) = n.
Proof. intros ->. unfold numel. change (stride DT_F32) with 4. rewrite Nat.mul_comm. apply Nat.div_mul. lia. Qed.
Lemma n_sizes nt : 1 <= nt <= 10 -> sizes_ok (4 * n) n nt.
Proof. intros H. unfold sizes_ok. assert (Z.of_nat n * Z.of_nat nt <= 2 ^ 20 * 10)%Z by (apply Z.mul_le_mono_nonneg; lia). lia. Qed.
Lemma n_bytes : bytes_for DT_UINT8 n = n.
Proof. rewrite bytes_for_per_byte by (right; right; reflexivity). cbn [per_byte]. rewrite Nat.div_1_r. lia. Qed.
Lemma half_scaled x : (Rabs x <= 41)%R -> (Rabs (scaled (val f_half) x) <= 100)%R.
Proof.
  intros H. pose proof (scaled_rel f_half x half_normal) as S. destruct half_ok as [_ V]. rewrite V in *. pose proof tiny_small as [T0 T1].
  set (y := scaled (/ 2) x) in *. assert (E : Rabs (x / / 2) = (2 * Rabs x)%R) by (unfold Rdiv; rewrite Rabs_mult, Rinv_inv, (Rabs_pos_eq 2) by lra; ring).
  rewrite E in S. pose proof (Rabs_triang (y - x / / 2) (x / / 2)) as TR. replace (y - x / / 2 + x / / 2)%R with y in TR by ring. rewrite E in TR. unfold u32r in S. lra.
Qed.
Lemma ring_sender_ok draw b i : a_draw draw -> tensor 41 b -> i < n -> sender_ok draw i (ring_sender draw b).
Proof.
  intros HD (L & HB & F) Hi. pose proof (n_numel b L) as N.
  assert (Z62 : (Z.abs 128 <= 2 ^ 62)%Z) by lia.
  assert (BO : buffers_ok 2 DT_F32 DT_UINT8 b ring_buffer).
  { split; [left; reflexivity|]. split; [right; right; reflexivity|]. split; [exact HB|]. rewrite N, n_bytes. split; [apply repeat_length|]. rewrite L. apply n_sizes. lia. }
  assert (HX : forall k, k < numel DT_F32 (length b) -> quantizable f_half (elem_at DT_F32 b k)).
  { rewrite N. intros k Hk. destruct (F k Hk) as [Fk Kk]. split; [exact Fk|]. change (elem_at DT_F32 b k) with (f32_at b k). eapply Rle_lt_trans; [apply half_scaled; exact Kk|].
    apply Rlt_trans with (bpow radix2 10); [change (bpow radix2 10) with 1024%R; lra|apply bpow_lt; lia]. }
  split; [exact half_normal|]. split; [exact Z62|]. split; [exact HX|]. split; [|split].
  - intros u Hu. split; [exact BO|]. destruct (C30_draw draw u HD Hu) as [TH _]. pose proof (run_seq_returns b ring_buffer (ring_call draw b u)) as R.
    destruct (C29_quantize_stochastic AVX2 2 0 DT_F32 DT_UINT8 f_half 128 (draw u) b ring_buffer _ BO half_good Z62 TH HX R) as (m & E & _).
    cbn [ring_sender s_codes s_arch s_threads s_addr s_in s_out s_scale s_zp s_data s_buffer]. unfold ring_codes. rewrite E in R |- *. exact R.
  - cbn [ring_sender s_in s_data]. rewrite N. exact Hi.
  - destruct (F i Hi) as [_ K]. pose proof (half_scaled _ K) as Y.
    unfold true_value. cbn [ring_sender s_in s_out s_data s_scale s_zp]. change (elem_at DT_F32 b i) with (f32_at b i). fold (value i b). set (y := scaled (val f_half) (value i b)) in *.
    apply Rabs_le_inv in Y. assert (Y1 : (-100 <= Zfloor y)%Z) by (apply Zfloor_lub; lra). assert (Y2 : (Zceil y <= 100)%Z) by (apply Zceil_glb; lra).
    change (code_max DT_UINT8) with 255%Z. cbv zeta. lia.
Qed.
Lemma ring_codes_len draw b u : a_draw draw -> tensor 41 b -> 0 < n -> output64 u -> length (ring_codes draw b u) = n /\ Forall is_byte (ring_codes draw b u).
Proof.
  intros HD HO H0 Hu. destruct (ring_sender_ok draw b 0 HD HO H0) as (_ & _ & _ & HK & _). destruct (HK u Hu) as (BO & HR). destruct (C30_draw draw _ HD Hu) as [T _].
  cbn [ring_sender s_zp s_codes] in HR. assert (Z63 : (- 2 ^ 63 <= 128 < 2 ^ 63)%Z) by lia.
  destruct (C12_any_data _ _ _ _ _ _ _ _ _ _ _ _ BO (fun _ => T) Z63 HR) as [E|(o' & E & L & B & _)]; [discriminate|]. injection E as <-. split; [rewrite L; apply repeat_length|exact B].
Qed.
Lemma ring_arrival_ok draw own b u : a_draw draw -> tensor 41 b -> tensor 1 own -> 0 < n -> output64 u -> contribution_ok own (ring_arrival draw b u).
Proof.
  intros HD HO (L & _) H0 Hu. destruct (ring_codes_len draw b u HD HO H0 Hu) as [LC BC]. unfold contribution_ok, ring_arrival. cbn [c_threads c_type c_bytes c_size c_zp c_scale].
  split; [|split; [cbn; lia|apply half_ok]]. unfold dq_buffers. rewrite (n_numel own L), app_length, LC, n_bytes. split; [right; right; reflexivity|]. split; [left; reflexivity|].
  split; [apply Forall_app; split; [exact BC|apply Forall_cons; [unfold is_byte; lia|apply Forall_nil]]|]. split; [reflexivity|]. split; [cbn; lia|].
  split; [rewrite L; apply n_sizes; lia|]. discriminate.
Qed.
Lemma ring_next_ok draw own b u K : a_draw draw -> tensor K b -> (K <= 40)%R -> tensor 1 own -> 0 < n -> output64 u ->
  add_step (ring_arrival draw b u) own (Ok (ring_next draw own b u)) /\ tensor (K + 3) (ring_next draw own b u).
Proof.
  intros HD HK HK40 HOwn H0 Hu.
  assert (HO : tensor 41 b).
  { destruct HK as (L & B & F). split; [exact L|]. split; [exact B|]. intros i Hi. destruct (F i Hi) as [Fi Ki]. split; [exact Fi|lra]. }
  pose proof (ring_arrival_ok draw own b u HD HO HOwn H0 Hu) as CO. pose proof CO as (DB & Hz & Fs). destruct HOwn as (Lo & Bo & Fo).
  pose proof (run_seq_returns (c_bytes (ring_arrival draw b u)) own (ring_add (ring_arrival draw b u) own)) as A.
  destruct (dequantize_f32 _ _ _ _ _ _ _ _ _ _ _ DB Hz (fun _ => Fs) A) as (o' & E & L' & HV & HT).
  assert (EN : ring_next draw own b u = o') by (unfold ring_next; rewrite E; reflexivity). rewrite EN. rewrite E in A. clear EN E. split; [exact A|].
  rewrite (n_numel own Lo) in HV, HT.
  split; [lia|]. split; [refine (bytes_of_slices 4 n o' own _ ltac:(lia) L' Bo _ HT); intros k Hk; split; [apply HV; exact Hk|]; split; [apply le_bytes_length|apply le_bytes_is_byte]|].
  intros i Hi. pose proof (ring_sender_ok draw b i HD HO Hi) as HS.
  pose proof (conj eq_refl (conj eq_refl (conj eq_refl (conj eq_refl (ex_intro _ [0%Z] eq_refl)))) : delivers (ring_sender draw b, u) (ring_arrival draw b u)) as DL.
  assert (AC : accumulates (numel DT_F32 (length own)) [ring_arrival draw b u] i) by (rewrite (n_numel own Lo); split; [exact Hi|right; apply Forall_cons; [discriminate|apply Forall_nil]]).
  assert (Z19 : (Z.abs (s_zp (ring_sender draw b)) <= 2 ^ 19)%Z) by (cbn; lia).
  destruct half_ok as [_ V]. destruct HK as (Lb & Bb & Fb). destruct (Fb i Hi) as [_ KK]. destruct (Fo i Hi) as [Foi Ko].
  assert (SN : (Rabs (sent i (ring_sender draw b) u - value i b) <= 1 + 1 / 10)%R).
  { pose proof (sent_near draw i _ u HD HS Hu) as N. change (true_value i (ring_sender draw b)) with (value i b) in N. cbn [ring_sender s_scale] in N. rewrite V, (Rabs_pos_eq (/ 2)) in N by lra.
    assert (E22 : bpow radix2 (-22) = (/ 4194304)%R) by (cbn; lra). rewrite E22 in N. fold (ring_sender draw b) in N. lra. }
  pose proof (Rabs_triang (sent i (ring_sender draw b) u - value i b) (value i b)) as TR. replace (sent i (ring_sender draw b) u - value i b + value i b)%R with (sent i (ring_sender draw b) u) in TR by ring.
  assert (E40 : (64 <= bpow radix2 124)%R) by (change 64%R with (bpow radix2 6); apply bpow_le; lia).
  assert (HR : (Rabs (value i o' - (value i own + sent i (ring_sender draw b) u)) <= 40 * bpow radix2 (-20))%R).
  { apply (hop_received draw i 40 own (ring_sender draw b) (ring_arrival draw b u) o' u HD HS Z19 Foi Hu DL CO AC A); lra. }
  assert (FO : finite (f32_at o' i)).
  { assert (AA : Forall accurate [ring_arrival draw b u]) by (apply Forall_cons; [split; [exact half_normal|exact Z19]|apply Forall_nil]).
    assert (CH : chain add_step [ring_arrival draw b u] own (Ok o')) by (eapply chain_next; [exact A|constructor]).
    destruct (C55_accumulated_error _ own (Ok o') (Forall_cons _ CO (Forall_nil _)) AA CH) as (o2 & E2 & _ & X). injection E2 as <-.
    specialize (X i AC Foi). cbv zeta in X. unfold rsum in X. cbn [fold_right length Nat.add] in X. rewrite (delivered draw i (ring_sender draw b) u _ HD HS Hu DL) in X.
    change (val (f32_at own i)) with (value i own) in X.
    apply X. assert (E127 : bpow radix2 127 = (8 * bpow radix2 124)%R) by (change 127%Z with (3 + 124)%Z; rewrite bpow_plus; reflexivity). rewrite E127. unfold u_f32. lra. }
  assert (E20 : bpow radix2 (-20) = (/ 1048576)%R) by (cbn; lra). rewrite E20 in HR.
  split; [exact FO|].
  pose proof (Rabs_triang (value i o' - (value i own + sent i (ring_sender draw b) u)) (value i own + sent i (ring_sender draw b) u)) as T1.
  replace (value i o' - (value i own + sent i (ring_sender draw b) u) + (value i own + sent i (ring_sender draw b) u))%R with (value i o') in T1 by ring.
  pose proof (Rabs_triang (value i own) (sent i (ring_sender draw b) u)). lra.
Qed.

Lemma ring_exists draw hops i : a_draw draw -> i < n -> Forall (fun h => tensor 1 (fst h) /\ snd h = (/ 2)%R) hops -> forall b K, tensor K b -> (K + 3 * INR (length hops) <= 40)%R ->
  ring_run draw i 40 hops b (ring_final draw hops b).
Proof.
  intros HD Hi HF. assert (H0 : 0 < n) by lia. induction HF as [|[own S] rest [HO HS] HF IH]; intros b K HK HB.
  - apply ring_end. reflexivity.
  - cbn [fst snd] in HO, HS. subst S. cbn [length] in HB. rewrite S_INR in HB. pose proof (pos_INR (length rest)) as P0. destruct half_ok as [_ V].
    assert (HK41 : tensor 41 b).
    { destruct HK as (L & B & F). split; [exact L|]. split; [exact B|]. intros k Hk. destruct (F k Hk) as [Fk Kk]. split; [exact Fk|lra]. }
    assert (HN : forall u, output64 u -> add_step (ring_arrival draw b u) own (Ok (ring_next draw own b u)) /\ tensor (K + 3) (ring_next draw own b u)).
    { intros u Hu. apply ring_next_ok; auto. lra. }
    pose proof HO as (Lo & Bo & Fo). destruct (Fo i Hi) as [Foi Ko].
    apply (ring_hop draw i 40 own (/ 2) rest b (ring_sender draw b) (ring_arrival draw b) (ring_next draw own b)).
    + reflexivity.
    + reflexivity.
    + apply ring_sender_ok; auto.
    + cbn. lia.
    + cbn [ring_sender s_scale]. rewrite V, Rabs_pos_eq; lra.
    + exact Foi.
    + lra.
    + destruct HK as (_ & _ & F). destruct (F i Hi) as [_ KK]. lra.
    + intros u Hu. repeat split. exists [0%Z]. reflexivity.
    + intros u Hu. apply ring_arrival_ok; auto.
    + intros u Hu. rewrite (n_numel own Lo). split; [exact Hi|right; apply Forall_cons; [discriminate|apply Forall_nil]].
    + intros u Hu. apply HN. exact Hu.
    + intros u Hu. cbn [ring_final]. apply (IH _ (K + 3)%R); [apply HN; exact Hu|lra].
Qed.
Lemma ring_steps (owns : list mem) : rsum (fun h : mem * R => (snd h ^ 2)%R) (map (fun own => (own, (/ 2)%R)) owns) = (INR (length owns) * / 4)%R.
Proof. induction owns as [|a l IH]; [unfold rsum; cbn; ring|]. cbn [map length]. rewrite rsum_cons, IH, S_INR. cbn [snd]. field. Qed.
Lemma ring_owns i (owns : list mem) : rsum (fun h : mem * R => value i (fst h)) (map (fun own => (own, (/ 2)%R)) owns) = rsum (value i) owns.
Proof. induction owns as [|a l IH]; [reflexivity|]. cbn [map]. rewrite !rsum_cons, IH. reflexivity. Qed.
(** such rings of ten hops *)
Lemma ring_ten draw owns b : a_draw draw -> tensor 1 b -> Forall (tensor 1) owns -> length owns = 10 ->
  let hops := map (fun own => (own, (/ 2)%R)) owns in
  length hops = 10 /\ Forall (fun h => (snd h <= / 2)%R) hops /\ forall i, i < n -> ring_run draw i 40 hops b (ring_final draw hops b).
Proof.
  intros HD HB HO HL hops.
  assert (LH : length hops = 10) by (unfold hops; rewrite map_length; exact HL).
  assert (HF : Forall (fun h => tensor 1 (fst h) /\ snd h = (/ 2)%R) hops).
  { apply Forall_forall. intros h Hh. apply in_map_iff in Hh. destruct Hh as (own & <- & Hin). rewrite Forall_forall in HO. split; [apply HO; exact Hin|reflexivity]. }
  split; [exact LH|]. split.
  - apply Forall_forall. intros h Hh. rewrite Forall_forall in HF. destruct (HF h Hh) as [_ ->]. lra.
  - intros i Hi. apply (ring_exists draw hops i HD Hi HF b 1); auto. rewrite LH. cbn. lra.
Qed.
Lemma forty : (40 <= bpow radix2 124)%R.
Proof. apply Rle_trans with (bpow radix2 6); [change (bpow radix2 6) with 64%R; lra|apply bpow_le; lia]. Qed.
(** ten hops: the mean is right within 0.001, the mean-square error is at most 0.64 (nearest rounding may be off by 2.5 in the worst case) *)
Example C78_witness draw owns b i : a_draw draw -> tensor 1 b -> Forall (tensor 1) owns -> length owns = 10 -> i < n ->
  exists final, let hops := map (fun own => (own, (/ 2)%R)) owns in
  ring_run draw i 40 hops b final /\
  let truth := (value i b + rsum (value i) owns)%R in
  (Rabs (mean_over_all 10 (fun us => value i (final us)) - truth) <= 1 / 1000)%R /\
  (mean_over_all 10 (fun us => (value i (final us) - truth) ^ 2) <= 64 / 100)%R.
Proof.
  intros HD HB HO HL Hi. set (hops := map (fun own => (own, (/ 2)%R)) owns). exists (ring_final draw hops b). cbv zeta. fold hops.
  destruct (ring_ten draw owns b HD HB HO HL) as (LH & HH & HR). fold hops in LH, HH, HR. specialize (HR i Hi). split; [exact HR|].
  destruct (C78_stochastic_ring draw i 40 (/ 2) b hops _ HD ltac:(lra) forty HR HH) as [M V].
  cbv zeta in M, V. rewrite LH in M, V. set (fin := ring_final draw hops b) in *. clearbody fin.
  unfold hops in M, V. rewrite ring_owns in M, V. rewrite ring_steps, HL in V.
  assert (E10 : INR 10 = 10%R) by (cbn; lra). rewrite E10 in M, V.
  assert (E19 : bpow radix2 (-19) = (/ 524288)%R) by (cbn; lra). assert (E18 : bpow radix2 (-18) = (/ 262144)%R) by (cbn; lra). rewrite E19 in M, V. rewrite E18 in V.
  split; [eapply Rle_trans; [exact M|]; lra|eapply Rle_trans; [exact V|]; lra].
Qed.
End Ring.
