(** PropsRing.v -- C70: ring reduction.  The running sum travels from worker to worker: the sender quantizes it, the receiver adds the packed
    buffer to its own data with dequantize(add) and becomes the next sender (README: "useful for ring-reduction operations"). *)
From Coq Require Import ZArith List Lia Bool Arith Reals Lra Psatz.
From Flocq Require Import Core Binary Bits Relative.
From Verif Require Import Base Floats Simd Dtypes Spec ApiSpec QuantKernels DequantKernels ExecFacts FloatFacts QuantFacts QuantKernelFacts QuantGenericFacts DequantFacts DequantGenericFacts Context ContextFacts QuantizeFacts DequantizeFacts Api PropsQuantize FloatFacts2 PropsDequantize PropsRoundTrip RoundTripFacts PropsIdempotent
  QuantLanes MinMax MinMaxFacts ConfigSpec F64Facts ConfigFacts PropsConfig PropsRepresent PropsRoundTripTypes PropsAccumulate PropsReplicas.
Import ListNotations.
Open Scope nat_scope.

(** ** Vocabulary *)
(** One hop: how the sender quantizes the running sum (CPU, threads, packed type, parameters, rounding mode, random bits, buffer, and what follows
    the buffer in the receiver's memory), the receiver's own data, and how the receiver decodes. *)
Record hop := {
  h_arch : arch; h_threads : nat; h_qaddr : Z; h_type : dtype; h_scale : f32; h_zp : Z; h_mode : round_mode_t; h_thr : f32; h_buffer : mem; h_extra : mem;
  h_rarch : arch; h_rthreads : nat; h_oaddr : Z; h_own : mem }.
(** the sender, holding the running sum [b], as a peer of C55 *)
Definition sender (h : hop) (b : mem) : peer :=
  {| p_data_type := DT_F32; p_data := b; p_arch := h_arch h; p_threads := h_threads h; p_qaddr := h_qaddr h; p_type := h_type h; p_scale := h_scale h; p_zp := h_zp h;
     p_mode := h_mode h; p_thr := h_thr h; p_buffer := h_buffer h; p_extra := h_extra h; p_rarch := h_rarch h; p_rthreads := h_rthreads h; p_oaddr := h_oaddr h |}.
(** quantize the running sum [b], then dequantize(add) into the receiver's own data: the new running sum *)
Definition hop_step (h : hop) (b : mem) (r : res mem) : Prop := peer_step (sender h b) (h_own h) r.

(** the hop fits tensors of [n] finite f32 elements *)
Definition hop_ok (n : nat) (h : hop) : Prop :=
  quant_type (h_type h) /\ length (h_buffer h) = bytes_for (h_type h) n /\ sizes_ok (4 * n) n (h_threads h) /\ sizes_ok (4 * n) n (h_rthreads h) /\
  Forall is_byte (h_extra h) /\ h_extra h <> [] /\ (h_mode h = RM_STOCHASTIC -> threshold (h_thr h)) /\ finite_data DT_F32 (h_own h) n.
Definition params_ok (h : hop) : Prop := normal_scale (h_scale h) /\ (0 < val (h_scale h))%R /\ (0 <= h_zp h <= code_max (h_type h))%Z.
(** the parameters cover the values of [b], give or take half a step *)
Definition hop_covers (n : nat) (h : hop) (b : mem) : Prop := peer_fits n (sender h b).
(** C08: the last n mod 4 elements of a uint2 buffer are not added *)
Definition adds_all (n : nat) (hs : list hop) : Prop := n mod 4 = 0 \/ Forall (fun h => h_type h <> DT_UINT2) hs.

Local Open Scope R_scope.
Definition at_ (m : mem) (i : nat) : R := val (f32_at m i).
(** worst code error of a hop: half a step or a step *)
Definition hop_error (h : hop) : R := val (h_scale h) * (match h_mode h with RM_NEAREST => / 2 | RM_STOCHASTIC => 1 end + bpow radix2 (-12)).
Definition ring_sum (x0 : mem) (hs : list hop) (i : nat) : R := at_ x0 i + rsum (fun h => at_ (h_own h) i) hs.
Definition ring_mass (x0 : mem) (hs : list hop) (i : nat) : R := Rabs (at_ x0 i) + rsum (fun h => Rabs (at_ (h_own h) i) + hop_error h) hs.
(** f32 rounding: two operations per hop *)
Definition ring_grow (k : nat) : R := (1 + u_f32) ^ (2 * k).

(** ** One hop *)
Lemma numel4 n : numel DT_F32 (4 * n) = n.
Proof. unfold numel. change (stride DT_F32) with 4%nat. rewrite Nat.mul_comm. apply Nat.div_mul. lia. Qed.

Lemma hop_peer_ok n h b : hop_ok n h -> params_ok h -> finite_data DT_F32 b n -> peer_ok (h_own h) (sender h b).
Proof.
  intros (Hq & HL & HS & HS2 & He & Hne & Ht & (Bo & Lo & Fo)) (Hn & Hp & Hz) (Bb & Lb & Fb). change (stride DT_F32) with 4%nat in *.
  unfold peer_ok, sender. cbn [p_data_type p_data p_arch p_threads p_qaddr p_type p_scale p_zp p_mode p_thr p_buffer p_extra p_rarch p_rthreads p_oaddr].
  unfold buffers_ok. rewrite Lo, Lb, !numel4.
  split; [split; [left; reflexivity|split; [exact Hq|split; [exact Bb|split; [exact HL|exact HS]]]]|].
  split; [reflexivity|]. split; [exact HS2|]. split; [exact He|]. split; [exact Hne|]. split; [exact Hn|]. split; [exact Hp|]. split; [exact Hz|exact Ht].
Qed.

Lemma grow2 : ring_grow 1 = (1 + u_f32) ^ 2.
Proof. reflexivity. Qed.

Lemma hop_once n h b r : hop_ok n h -> params_ok h -> finite_data DT_F32 b n -> hop_covers n h b -> adds_all n [h] -> hop_step h b r ->
  (forall i, (i < n)%nat -> (Rabs (at_ (h_own h) i) + Rabs (at_ b i) + hop_error h) * ring_grow 1 <= bpow radix2 127) ->
  exists o, r = Ok o /\ finite_data DT_F32 o n /\
    forall i, (i < n)%nat -> Rabs (at_ o i - (at_ (h_own h) i + at_ b i)) <= hop_error h + (ring_grow 1 - 1) * (Rabs (at_ (h_own h) i) + Rabs (at_ b i) + hop_error h).
Proof.
  intros HO HP HB HC HA HR HM. pose proof (hop_peer_ok n h b HO HP HB) as K. pose proof HO as (Hq & _ & _ & _ & _ & _ & _ & (Bo & Lo & Fo)). change (stride DT_F32) with 4%nat in *.
  assert (NE : numel DT_F32 (length (h_own h)) = n) by (rewrite Lo; apply numel4).
  assert (CH : chain peer_step [sender h b] (h_own h) r).
  { destruct r as [o| |]; [eapply chain_next; [exact HR|constructor]|apply chain_stop; [exact HR|discriminate]|apply chain_stop; [exact HR|discriminate]]. }
  assert (F1 : Forall (peer_fits (numel DT_F32 (length (h_own h)))) [sender h b]) by (constructor; [rewrite NE; exact HC|constructor]).
  destruct (C55_all_reduce_error _ _ r (Forall_cons _ K (Forall_nil _)) F1 CH) as (o & -> & L & HE).
  rewrite NE in HE. exists o. split; auto.
  assert (G : forall i, (i < n)%nat -> finite (f32_at o i) /\
    Rabs (at_ o i - (at_ (h_own h) i + at_ b i)) <= hop_error h + (ring_grow 1 - 1) * (Rabs (at_ (h_own h) i) + Rabs (at_ b i) + hop_error h)).
  { intros i Hi. specialize (HE i Hi). unfold rsum in HE. cbn [fold_right length] in HE. change (p_error (sender h b)) with (hop_error h) in HE.
    change (p_x (sender h b) i) with (at_ b i) in HE. change (val (f32_at o i)) with (at_ o i) in HE. change (val (f32_at (h_own h) i)) with (at_ (h_own h) i) in HE.
    change ((1 + u_f32) ^ (1 + 1)) with (ring_grow 1) in HE. rewrite !Rplus_0_r in HE. destruct HE as [F E].
    - destruct HA as [HA|HA].
      + left. pose proof (Nat.div_mod n 4 ltac:(lia)). lia.
      + right. inversion HA; subst. constructor; [assumption|constructor].
    - apply Fo. auto.
    - eapply Rle_trans; [|apply (HM i Hi)]. right. ring.
    - split; [exact F|]. eapply Rle_trans; [exact E|]. right. ring. }
  split; [|apply G]. split; [|split; [change (stride DT_F32) with 4%nat; lia|intros i Hi; apply (G i Hi)]].
  destruct (peer_contributes (h_own h) (sender h b) (Ok o) K) as (c & A & (DB & Hz & Hs) & _).
  { rewrite NE. exact HC. }
  { exact HR. }
  destruct (dequantize_f32 _ _ _ _ _ _ _ _ _ _ _ DB Hz (fun _ => Hs) A) as (o' & E & L' & HV & HT). injection E as <-.
  refine (bytes_of_slices 4 _ o (h_own h) _ ltac:(lia) L' Bo _ HT). intros i Hi. split; [apply HV; exact Hi|]. split; [apply le_bytes_length|apply le_bytes_is_byte].
Qed.

(** ** The whole chain *)
Lemma u_pos : 0 < u_f32.
Proof. unfold u_f32. lra. Qed.
Lemma grow_ge1 k : 1 <= ring_grow k.
Proof. pose proof u_pos. apply pow_R1_Rle. lra. Qed.
Lemma grow_S k : ring_grow (S k) = ring_grow 1 * ring_grow k.
Proof. unfold ring_grow. replace (2 * S k)%nat with (2 * 1 + 2 * k)%nat by lia. apply pow_add. Qed.
Lemma grow_le j k : (j <= k)%nat -> ring_grow j <= ring_grow k.
Proof. intros H. pose proof u_pos. unfold ring_grow. apply Rle_pow; [lra|lia]. Qed.
Lemma rsum_app {X} (f : X -> R) l l' : rsum f (l ++ l') = rsum f l + rsum f l'.
Proof. induction l as [|a l IH]; [unfold rsum; cbn [app fold_right]; ring|]. cbn [app]. rewrite !rsum_cons, IH. ring. Qed.
Lemma hop_error_pos h : params_ok h -> 0 <= hop_error h.
Proof. intros (_ & Hp & _). unfold hop_error. change (bpow radix2 (-12)) with (/ 4096). apply Rmult_le_pos; [lra|]. destruct (h_mode h); lra. Qed.

(** the running sum after the hops [pre]: finite and within the claimed error of the exact sum *)
Definition within (n : nat) (x0 : mem) (pre : list hop) (b : mem) : Prop :=
  finite_data DT_F32 b n /\
  forall i, (i < n)%nat -> Rabs (at_ b i - ring_sum x0 pre i) <= rsum hop_error pre + (ring_grow (length pre) - 1) * ring_mass x0 pre i.

Lemma ring_mass_ge x0 pre i : Forall params_ok pre -> Rabs (ring_sum x0 pre i) + rsum hop_error pre <= ring_mass x0 pre i.
Proof.
  intros H. unfold ring_mass, ring_sum. pose proof (Rabs_triang (at_ x0 i) (rsum (fun h => at_ (h_own h) i) pre)) as T.
  assert (Rabs (rsum (fun h => at_ (h_own h) i) pre) + rsum hop_error pre <= rsum (fun h => Rabs (at_ (h_own h) i) + hop_error h) pre); [|lra]. clear T.
  induction pre as [|h pre IH]; [unfold rsum; cbn [fold_right]; rewrite Rabs_R0; lra|]. inversion H; subst. rewrite !rsum_cons. specialize (IH ltac:(assumption)).
  pose proof (Rabs_triang (at_ (h_own h) i) (rsum (fun h => at_ (h_own h) i) pre)). lra.
Qed.
Lemma within_bound n x0 pre b i : Forall params_ok pre -> within n x0 pre b -> (i < n)%nat -> Rabs (at_ b i) <= ring_grow (length pre) * ring_mass x0 pre i.
Proof.
  intros HP (_ & H) Hi. specialize (H i Hi). pose proof (ring_mass_ge x0 pre i HP). pose proof (Rabs_triang (at_ b i - ring_sum x0 pre i) (ring_sum x0 pre i)) as T.
  replace (at_ b i - ring_sum x0 pre i + ring_sum x0 pre i) with (at_ b i) in T by ring. nra.
Qed.
Lemma ring_mass_snoc x0 pre h i : ring_mass x0 (pre ++ [h]) i = ring_mass x0 pre i + (Rabs (at_ (h_own h) i) + hop_error h).
Proof. unfold ring_mass. rewrite rsum_app. unfold rsum at 2. cbn [fold_right]. ring. Qed.
Lemma ring_mass_pos x0 pre i : Forall params_ok pre -> 0 <= ring_mass x0 pre i.
Proof.
  intros H. unfold ring_mass. pose proof (Rabs_pos (at_ x0 i)). assert (0 <= rsum (fun h => Rabs (at_ (h_own h) i) + hop_error h) pre); [|lra].
  induction H as [|h pre Hh H IH]; [unfold rsum; cbn [fold_right]; lra|]. rewrite rsum_cons. pose proof (Rabs_pos (at_ (h_own h) i)). pose proof (hop_error_pos h Hh). lra.
Qed.
Lemma ring_mass_app_le x0 pre hs i : Forall params_ok hs -> ring_mass x0 pre i <= ring_mass x0 (pre ++ hs) i.
Proof.
  intros H. unfold ring_mass. rewrite rsum_app. assert (0 <= rsum (fun h => Rabs (at_ (h_own h) i) + hop_error h) hs); [|lra].
  induction H as [|h pre' Hh H IH]; [unfold rsum; cbn [fold_right]; lra|]. rewrite rsum_cons. pose proof (Rabs_pos (at_ (h_own h) i)). pose proof (hop_error_pos h Hh). lra.
Qed.

Lemma within_next n x0 pre h b r : Forall params_ok pre -> hop_ok n h -> params_ok h -> adds_all n [h] -> within n x0 pre b -> hop_covers n h b -> hop_step h b r ->
  (forall i, (i < n)%nat -> ring_mass x0 (pre ++ [h]) i * ring_grow (length (pre ++ [h])) <= bpow radix2 127) ->
  exists o, r = Ok o /\ within n x0 (pre ++ [h]) o.
Proof.
  intros HPre HO HP HA HW HC HR HM. rewrite app_length in *. cbn [length] in *. rewrite Nat.add_1_r in *.
  pose proof (hop_error_pos h HP) as E0.
  destruct (hop_once n h b r HO HP (proj1 HW) HC HA HR) as (o & -> & FD & HE).
  { intros i Hi. eapply Rle_trans; [|apply (HM i Hi)]. rewrite (grow_S (length pre)), ring_mass_snoc. pose proof (within_bound n x0 pre b i HPre HW Hi) as B.
    pose proof (grow_ge1 1). pose proof (grow_ge1 (length pre)) as Gk. pose proof (ring_mass_pos x0 pre i HPre). pose proof (Rabs_pos (at_ (h_own h) i)).
    set (g := ring_grow 1) in *. set (gk := ring_grow (length pre)) in *. set (m := ring_mass x0 pre i) in *. set (y := Rabs (at_ (h_own h) i)) in *. set (e := hop_error h) in *.
    replace ((m + (y + e)) * (g * gk)) with ((gk * m + gk * (y + e)) * g) by ring. apply Rmult_le_compat_r; [lra|]. assert (y + e <= gk * (y + e)) by nra. lra. }
  exists o. split; auto. split; auto. intros i Hi. specialize (HE i Hi). pose proof (within_bound n x0 pre b i HPre HW Hi) as B. destruct HW as [_ HW]. specialize (HW i Hi).
  rewrite app_length. cbn [length]. rewrite Nat.add_1_r, (grow_S (length pre)), ring_mass_snoc. unfold ring_sum in *. rewrite !rsum_app. unfold rsum at 2. cbn [fold_right]. unfold rsum at 3. cbn [fold_right].
  rewrite !Rplus_0_r. pose proof (grow_ge1 1). pose proof (grow_ge1 (length pre)) as Gk. pose proof (ring_mass_pos x0 pre i HPre). pose proof (Rabs_pos (at_ (h_own h) i)).
  replace (at_ o i - (at_ x0 i + (rsum (fun h => at_ (h_own h) i) pre + at_ (h_own h) i))) with
    ((at_ o i - (at_ (h_own h) i + at_ b i)) + (at_ b i - (at_ x0 i + rsum (fun h => at_ (h_own h) i) pre))) by ring.
  eapply Rle_trans; [apply Rabs_triang|].
  set (g := ring_grow 1) in *. set (gk := ring_grow (length pre)) in *. set (m := ring_mass x0 pre i) in *. set (y := Rabs (at_ (h_own h) i)) in *. set (e := hop_error h) in *.
  set (E := rsum hop_error pre) in *. set (bb := Rabs (at_ b i)) in *.
  assert (X1 : (g - 1) * (y + bb + e) <= (g - 1) * (y + gk * m + e)) by (apply Rmult_le_compat_l; lra).
  assert (X2 : (g - 1) * (y + e) <= (g * gk - 1) * (y + e)) by (apply Rmult_le_compat_r; [lra|nra]).
  replace ((g * gk - 1) * (m + (y + e))) with ((g - 1) * (gk * m) + (gk - 1) * m + (g * gk - 1) * (y + e)) by ring. lra.
Qed.

Lemma nth_error_firstn_cons {X} (h : X) hs k : firstn (S k) (h :: hs) = h :: firstn k hs.
Proof. reflexivity. Qed.

(** every hop covers whatever running sum within the claimed error may reach it *)
Lemma ring_run n x0 (step : hop -> mem -> res mem -> Prop) hs : (forall h b r, step h b r -> hop_step h b r) -> forall pre b r,
  chain step hs b r -> Forall params_ok pre -> Forall (hop_ok n) hs -> Forall params_ok hs -> adds_all n hs -> within n x0 pre b ->
  (forall k h b' r', nth_error hs k = Some h -> within n x0 (pre ++ firstn k hs) b' -> step h b' r' -> hop_covers n h b') ->
  (forall i, (i < n)%nat -> ring_mass x0 (pre ++ hs) i * ring_grow (length (pre ++ hs)) <= bpow radix2 127) ->
  exists o, r = Ok o /\ within n x0 (pre ++ hs) o.
Proof.
  intros HS. induction hs as [|h hs IH]; intros pre b r HC HPre HO HP HA HW HCov HM.
  - inversion HC; subst. exists b. rewrite app_nil_r. auto.
  - assert (A1 : adds_all n [h] /\ adds_all n hs).
    { destruct HA as [HA|HA]; [split; left; auto|]. inversion HA; subst. split; right; auto. }
    destruct A1 as [A1 A2]. inversion HO as [|? ? O1 O2]; inversion HP as [|? ? P1 P2]; subst.
    assert (EA : pre ++ h :: hs = (pre ++ [h]) ++ hs) by (rewrite <- app_assoc; reflexivity).
    assert (PRE' : Forall params_ok (pre ++ [h])) by (apply Forall_app; auto).
    assert (NX : forall r', step h b r' -> exists o, r' = Ok o /\ within n x0 (pre ++ [h]) o).
    { intros r' Hr'. apply (within_next n x0 pre h b r'); auto.
      - apply (HCov O h b r'); auto. cbn [firstn]. rewrite app_nil_r. exact HW.
      - intros i Hi. eapply Rle_trans; [|apply (HM i Hi)]. rewrite EA. pose proof (ring_mass_pos x0 (pre ++ [h]) i PRE').
        pose proof (grow_ge1 (length (pre ++ [h]))). apply Rmult_le_compat; try lra.
        + apply ring_mass_app_le; auto.
        + apply grow_le. rewrite (app_length _ hs). lia. }
    inversion HC as [|? ? ? b1 ? S1 C1|? ? ? ? S1 N1]; subst.
    + destruct (NX _ S1) as (o & E & HW'). injection E as <-. rewrite EA in *. apply (IH (pre ++ [h]) b1 r); auto.
      intros k h' b' r' Hk Hw Hr'. apply (HCov (S k) h' b' r'); auto. cbn [firstn]. rewrite <- app_assoc in Hw. exact Hw.
    + destruct (NX _ S1) as (o & E & _). destruct (N1 o E).
Qed.

Lemma within_start n x0 : finite_data DT_F32 x0 n -> within n x0 [] x0.
Proof.
  intros H. split; auto. intros i Hi. unfold ring_sum, ring_mass, rsum, ring_grow. cbn [fold_right length Nat.mul pow].
  replace (at_ x0 i - (at_ x0 i + 0)) with 0 by ring. rewrite Rabs_R0. right. cbn [Nat.add pow]. ring.
Qed.

(** ** The claims *)
(** If every hop's parameters cover the running sum it quantizes, no call aborts or is undefined, and the final sum is within the sum of the
    hops' code errors, plus f32 rounding, of the exact sum of all workers' data. *)
Theorem C70_ring_error n x0 hs r :
  finite_data DT_F32 x0 n -> Forall (hop_ok n) hs -> Forall params_ok hs -> adds_all n hs ->
  (forall i, (i < n)%nat -> ring_mass x0 hs i * ring_grow (length hs) <= bpow radix2 127) ->
  chain (fun h b r => hop_covers n h b /\ hop_step h b r) hs x0 r ->
  exists o, r = Ok o /\ finite_data DT_F32 o n /\
    forall i, (i < n)%nat -> Rabs (at_ o i - ring_sum x0 hs i) <= rsum hop_error hs + (ring_grow (length hs) - 1) * ring_mass x0 hs i.
Proof.
  intros HX HO HP HA HM HC.
  destruct (ring_run n x0 (fun h b r => hop_covers n h b /\ hop_step h b r) hs ltac:(intros h b q [_ H]; exact H) [] x0 r HC (Forall_nil _) HO HP HA (within_start n x0 HX)) as (o & -> & FD & H).
  - intros k h b' r' _ _ [H _]. exact H.
  - exact HM.
  - exists o. auto.
Qed.

(** Parameters chosen in advance: hop k's range covers every value up to the magnitudes added so far (and rounding) in both directions. *)
Definition covers_up_to (h : hop) (m : R) : Prop := IZR (0 - h_zp h) - / 2 <= - m / val (h_scale h) /\ m / val (h_scale h) <= IZR (code_max (h_type h) - h_zp h) + / 2.
Theorem C70_planned_ring n x0 hs r :
  finite_data DT_F32 x0 n -> Forall (hop_ok n) hs -> Forall params_ok hs -> adds_all n hs ->
  (forall k h i, nth_error hs k = Some h -> (i < n)%nat -> covers_up_to h (ring_grow k * ring_mass x0 (firstn k hs) i)) ->
  (forall i, (i < n)%nat -> ring_mass x0 hs i * ring_grow (length hs) <= bpow radix2 127) ->
  chain hop_step hs x0 r ->
  exists o, r = Ok o /\ finite_data DT_F32 o n /\
    forall i, (i < n)%nat -> Rabs (at_ o i - ring_sum x0 hs i) <= rsum hop_error hs + (ring_grow (length hs) - 1) * ring_mass x0 hs i.
Proof.
  intros HX HO HP HA HV HM HC.
  destruct (ring_run n x0 hop_step hs ltac:(auto) [] x0 r HC (Forall_nil _) HO HP HA (within_start n x0 HX)) as (o & -> & FD & H); auto.
  2:{ exists o. auto. }
  intros k h b' r' Hk HW _ i Hi. cbn [app] in HW. split; [apply (proj1 HW), Hi|].
  change (p_x (sender h b') i) with (at_ b' i). cbn [sender p_zp p_scale p_type].
  assert (HF : Forall params_ok (firstn k hs)).
  { rewrite Forall_forall in *. intros x Hx. apply HP. rewrite <- (firstn_skipn k hs). apply in_or_app. auto. }
  pose proof (within_bound n x0 (firstn k hs) b' i HF HW Hi) as B. rewrite firstn_length_le in B.
  2:{ apply Nat.lt_le_incl, nth_error_Some. rewrite Hk. discriminate. }
  destruct (HV k h i Hk Hi) as [V1 V2]. set (m := ring_grow k * ring_mass x0 (firstn k hs) i) in *.
  assert (PH : params_ok h) by (rewrite Forall_forall in HP; apply HP; eapply nth_error_In; eauto). destruct PH as (_ & Ps & _).
  apply Rabs_le_inv in B. assert (I : 0 < / val (h_scale h)) by (apply Rinv_0_lt_compat; lra).
  assert (- m / val (h_scale h) <= at_ b' i / val (h_scale h)) by (apply Rmult_le_compat_r; lra).
  assert (at_ b' i / val (h_scale h) <= m / val (h_scale h)) by (apply Rmult_le_compat_r; lra). lra.
Qed.

(** ** Parameters the library computes at every hop *)
Definition with_params (h : hop) (scale : f32) (zp : Z) : hop :=
  {| h_arch := h_arch h; h_threads := h_threads h; h_qaddr := h_qaddr h; h_type := h_type h; h_scale := scale; h_zp := zp; h_mode := h_mode h; h_thr := h_thr h;
     h_buffer := h_buffer h; h_extra := h_extra h; h_rarch := h_rarch h; h_rthreads := h_rthreads h; h_oaddr := h_oaddr h; h_own := h_own h |}.
(** The sender computes the parameters of the running sum (any CPU but SSE4.2, any cut into blocks; the sum straddles zero), quantizes with them, the receiver adds. *)
Definition computed_step (n : nat) (h : hop) (b : mem) (r : res mem) : Prop :=
  exists a blocks lo hi scale zp, a <> SSE42 /\ block_cover n blocks /\ data_range DT_F32 b n lo hi /\ lo <= 0 <= hi /\ bpow radix2 (-112) <= hi - lo <= bpow radix2 100 /\
    compute_quant_config_from_data a DT_F32 (h_type h) b blocks = Ok (scale, zp) /\ hop_step (with_params h scale zp) b r.
(** relative size of one hop's error: 1/(2^bits - 1) for nearest rounding, 2/(2^bits - 1) for stochastic rounding, and a thousandth *)
Definition hop_rate (h : hop) : R := match h_mode h with RM_NEAREST => 1 | RM_STOCHASTIC => 2 end * (1 + / 1000) / IZR (code_max (h_type h)).
(** M (1 + (1+c) + ... + (1+c)^k) *)
Definition ring_limit (c M : R) (k : nat) : R := M / c * ((1 + c) ^ S k - 1).

Lemma limit_S c M k : 0 < c -> ring_limit c M (S k) = (1 + c) * ring_limit c M k + M.
Proof. intros Hc. unfold ring_limit. cbn [pow]. field. lra. Qed.
Lemma limit_0 c M : 0 < c -> ring_limit c M 0 = M.
Proof. intros Hc. unfold ring_limit. cbn [pow]. field. lra. Qed.
Lemma limit_ge c M k : 0 < c -> 0 <= M -> M <= ring_limit c M k.
Proof. intros Hc HM. induction k as [|k IH]; [rewrite limit_0 by auto; lra|]. rewrite limit_S by auto. nra. Qed.

Lemma computed_next n h b r M B c : hop_ok n h -> adds_all n [h] -> finite_data DT_F32 b n -> computed_step n h b r ->
  0 <= M <= bpow radix2 100 -> M <= B -> hop_rate h <= c ->
  (forall i, (i < n)%nat -> Rabs (at_ (h_own h) i) <= M) -> (forall i, (i < n)%nat -> Rabs (at_ b i) <= B) ->
  exists o, r = Ok o /\ finite_data DT_F32 o n /\ forall i, (i < n)%nat -> Rabs (at_ o i - (at_ (h_own h) i + at_ b i)) <= c * B.
Proof.
  intros HO HA FB (a & blocks & lo & hi & scale & zp & Ha & HBl & HR & H0 & HB & EC & HS) HM HMB Hc HOw HBb.
  set (h' := with_params h scale zp) in *. assert (HO' : hop_ok n h') by exact HO.
  assert (HA' : adds_all n [h']) by (destruct HA as [HA|HA]; [left; exact HA|right; inversion HA; subst; constructor; [assumption|constructor]]). pose proof HO as (Hq & _).
  destruct (C55_computed_parameters_fit a blocks (sender h' b) n lo hi Ha (or_introl eq_refl) Hq FB HBl HR H0 HB EC) as (FIT & P1 & P2 & P3).
  assert (HP : params_ok h') by (split; [exact P1|split; [exact P2|exact P3]]).
  pose proof (bpow_gt_0 radix2 (-112)) as T0. assert (LH : lo < hi) by lra.
  assert (HB' : bpow radix2 (-118) <= hi - lo <= bpow radix2 100) by (assert (bpow radix2 (-118) <= bpow radix2 (-112)) by (apply bpow_le; lia); lra).
  destruct (C21_documented_parameters a _ _ _ n blocks lo hi Ha (or_introl eq_refl) Hq FB HBl HR LH) as (s & E & Fs & Vs).
  rewrite EC in E. injection E as Es _. rewrite <- Es in Vs. clear s Es Fs.
  pose proof HR as ((il & Hil & El) & (ih & Hih & Eh) & HRg).
  assert (I1 : in32 lo) by (rewrite <- El; apply in32_val, FB; auto). assert (I2 : in32 hi) by (rewrite <- Eh; apply in32_val, FB; auto).
  destruct (config_scale_rel (h_type h) lo hi Hq I1 I2 HB') as (e & Hee & Er & _).
  destruct (step_bounds (h_type h) lo hi Hq I1 I2 LH) as (d & Hd & Ed & _). pose proof (code_max_R _ Hq) as Q.
  assert (RB : hi - lo <= 2 * B).
  { change (at_ b il = lo) in El. change (at_ b ih = hi) in Eh. pose proof (HBb il Hil) as B1. pose proof (HBb ih Hih) as B2. rewrite El in B1. rewrite Eh in B2.
    apply Rabs_le_inv in B1. apply Rabs_le_inv in B2. lra. }
  set (q := IZR (code_max (h_type h))) in *. set (w := match h_mode h with RM_NEAREST => / 2 | RM_STOCHASTIC => 1 end).
  assert (Hw : / 2 <= w <= 1) by (unfold w; destruct (h_mode h); lra).
  assert (HRt : hop_rate h = 2 * w * (1 + / 1000) / q) by (unfold hop_rate, w, q; destruct (h_mode h); field; unfold q in Q; lra).
  assert (HEr : hop_error h' = val scale * (w + / 4096)) by reflexivity.
  rewrite Vs, Er, Ed in HEr. apply Rabs_le_inv in Hee. apply Rabs_le_inv in Hd. unfold u32r in Hee. unfold u64r in Hd.
  assert (B0 : 0 <= B) by lra.
  set (v := B / q). assert (V0 : 0 <= v) by (apply Rmult_le_pos; [lra|left; apply Rinv_0_lt_compat; lra]).
  assert (VB : v * 3 <= B). { unfold v. replace B with (B / q * q) at 2 by (field; lra). fold v. apply Rmult_le_compat_l; lra. }
  assert (VB2 : B <= v * 255). { replace B with (v * q) at 1 by (unfold v; field; lra). apply Rmult_le_compat_l; lra. }
  assert (S1 : (hi - lo) / q <= 2 * v). { unfold v. replace (2 * (B / q)) with ((2 * B) / q) by (field; lra). apply Rmult_le_compat_r; [left; apply Rinv_0_lt_compat; lra|lra]. }
  assert (S0 : 0 <= (hi - lo) / q) by (apply Rmult_le_pos; [lra|left; apply Rinv_0_lt_compat; lra]).
  set (z := (hi - lo) / q) in *.
  assert (HE1 : 0 <= hop_error h' <= 2 * v * (1 + / 10000000) * (w + / 4096)).
  { rewrite HEr. assert (D1 : 0 <= (1 + d) * (1 + e) <= 1 + / 10000000) by nra. rewrite (Rmult_assoc z). set (dd := (1 + d) * (1 + e)) in *.
    assert (0 <= z * dd <= 2 * v * (1 + / 10000000)) by (split; [apply Rmult_le_pos; lra|apply Rmult_le_compat; lra]). nra. }
  assert (G1 : 1 <= ring_grow 1 <= 1 + / 8000000) by (rewrite grow2; unfold u_f32; cbn [pow]; lra).
  assert (HCB : 2 * w * v * (1 + / 1000) <= c * B).
  { replace (2 * w * v * (1 + / 1000)) with (hop_rate h * B) by (rewrite HRt; unfold v; field; lra). apply Rmult_le_compat_r; lra. }
  assert (B100 : forall i, (i < n)%nat -> Rabs (at_ b i) <= bpow radix2 100).
  { intros i Hi. specialize (HRg i Hi). change (val (elem_at DT_F32 b i)) with (at_ b i) in HRg. apply Rabs_le. lra. }
  set (P := bpow radix2 100) in *. assert (P100 : 0 < P) by apply bpow_gt_0.
  assert (HE2 : hop_error h' <= 2 * P).
  { rewrite HEr. assert (D1 : 0 <= (1 + d) * (1 + e) <= 1 + / 10000000) by nra. rewrite (Rmult_assoc z). set (dd := (1 + d) * (1 + e)) in *.
    assert (Z3 : z <= P / 3). { unfold z. apply Rmult_le_compat; [lra|left; apply Rinv_0_lt_compat; lra|lra|apply Rinv_le; lra]. }
    assert (0 <= z * dd <= P / 3 * (1 + / 10000000)) by (split; [apply Rmult_le_pos; lra|apply Rmult_le_compat; lra]). nra. }
  destruct (hop_once n h' b r HO' HP FB FIT HA' HS) as (o & -> & FD & HE).
  { intros i Hi. specialize (B100 i Hi). specialize (HOw i Hi). change (h_own h') with (h_own h). apply Rle_trans with (8 * P).
    - pose proof (Rabs_pos (at_ b i)). pose proof (Rabs_pos (at_ (h_own h) i)). apply Rle_trans with ((4 * P) * 2); [|lra]. apply Rmult_le_compat; lra.
    - change 8 with (bpow radix2 3). unfold P. rewrite <- bpow_plus. apply bpow_le. lia. }
  exists o. split; auto. split; auto. intros i Hi. specialize (HE i Hi). change (h_own h') with (h_own h) in HE. specialize (HOw i Hi). specialize (HBb i Hi).
  eapply Rle_trans; [exact HE|]. eapply Rle_trans; [|exact HCB].
  pose proof (Rabs_pos (at_ b i)). pose proof (Rabs_pos (at_ (h_own h) i)).
  assert (E3 : hop_error h' <= B) by nra.
  assert (X : (ring_grow 1 - 1) * (Rabs (at_ (h_own h) i) + Rabs (at_ b i) + hop_error h') <= / 8000000 * (3 * (v * 255))) by (apply Rmult_le_compat; lra).
  nra.
Qed.

(** N hops with the parameters the library computes from each running sum: if all workers' values are at most M in magnitude, the final sum is
    within M/c ((1+c)^(N+1) - 1) - (N+1) M of the exact sum, where c bounds the rates of the hops (about M c N(N+1)/2 for small c N). *)
Theorem C70_computed_ring n x0 hs r M c :
  finite_data DT_F32 x0 n -> Forall (hop_ok n) hs -> adds_all n hs -> 0 <= M <= bpow radix2 100 ->
  (forall i, (i < n)%nat -> Rabs (at_ x0 i) <= M /\ Forall (fun h => Rabs (at_ (h_own h) i) <= M) hs) ->
  0 < c -> Forall (fun h => hop_rate h <= c) hs ->
  chain (computed_step n) hs x0 r ->
  exists o, r = Ok o /\ finite_data DT_F32 o n /\
    forall i, (i < n)%nat -> Rabs (at_ o i - ring_sum x0 hs i) <= M / c * ((1 + c) ^ (length hs + 1) - 1) - INR (length hs + 1) * M.
Proof.
  intros HX HO HA HM HI Hc HR HC.
  assert (GEN : forall hs k b (T : nat -> R), chain (computed_step n) hs b r -> Forall (hop_ok n) hs -> adds_all n hs -> Forall (fun h => hop_rate h <= c) hs ->
    (forall i, (i < n)%nat -> Forall (fun h => Rabs (at_ (h_own h) i) <= M) hs) -> finite_data DT_F32 b n ->
    (forall i, (i < n)%nat -> Rabs (T i) <= INR (k + 1) * M /\ Rabs (at_ b i - T i) <= ring_limit c M k - INR (k + 1) * M) ->
    exists o, r = Ok o /\ finite_data DT_F32 o n /\
      forall i, (i < n)%nat -> Rabs (at_ o i - (T i + rsum (fun h => at_ (h_own h) i) hs)) <= ring_limit c M (k + length hs) - INR (k + length hs + 1) * M).
  { clear hs x0 HX HO HA HI HR HC. intros hs. induction hs as [|h hs IH]; intros k b T HC HO HA HR HI FB HT.
    - inversion HC; subst. exists b. split; auto. split; auto. intros i Hi. cbn [length]. rewrite Nat.add_0_r. unfold rsum. cbn [fold_right]. rewrite Rplus_0_r. apply HT. auto.
    - assert (A1 : adds_all n [h] /\ adds_all n hs).
      { destruct HA as [HA|HA]; [split; left; auto|]. inversion HA; subst. split; right; auto. }
      destruct A1 as [A1 A2]. inversion HO as [|? ? O1 O2]; inversion HR as [|? ? R1 R2]; subst.
      assert (BB : forall i, (i < n)%nat -> Rabs (at_ b i) <= ring_limit c M k).
      { intros i Hi. destruct (HT i Hi) as [T1 T2]. pose proof (Rabs_triang (at_ b i - T i) (T i)) as TT. replace (at_ b i - T i + T i) with (at_ b i) in TT by ring. lra. }
      assert (NX : forall r', computed_step n h b r' -> exists o, r' = Ok o /\ finite_data DT_F32 o n /\
        forall i, (i < n)%nat -> Rabs (at_ o i - (at_ (h_own h) i + at_ b i)) <= c * ring_limit c M k).
      { intros r' Hr'. apply (computed_next n h b r' M (ring_limit c M k) c); auto.
        - apply limit_ge; [auto|lra].
        - intros i Hi. specialize (HI i Hi). inversion HI; auto. }
      inversion HC as [|? ? ? b1 ? S1 C1|? ? ? ? S1 N1]; subst.
      + destruct (NX _ S1) as (o & E & FO & HE). injection E as <-.
        destruct (IH (S k) b1 (fun i => T i + at_ (h_own h) i) C1 O2 A2 R2) as (o & -> & FO' & HE'); auto.
        * intros i Hi. specialize (HI i Hi). inversion HI; auto.
        * intros i Hi. destruct (HT i Hi) as [T1 T2]. specialize (HE i Hi). specialize (HI i Hi). inversion HI as [|? ? I1 I2]; subst. 
          replace (S k + 1)%nat with (S (k + 1)) by lia. rewrite S_INR. split.
          { eapply Rle_trans; [apply Rabs_triang|]. lra. }
          rewrite limit_S by auto. replace (at_ b1 i - (T i + at_ (h_own h) i)) with ((at_ b1 i - (at_ (h_own h) i + at_ b i)) + (at_ b i - T i)) by ring.
          eapply Rle_trans; [apply Rabs_triang|]. lra.
        * exists o. split; auto. split; auto. intros i Hi. specialize (HE' i Hi). cbn [length]. rewrite rsum_cons. replace (k + S (length hs))%nat with (S k + length hs)%nat by lia.
          rewrite <- Rplus_assoc. exact HE'.
      + destruct (NX _ S1) as (o & E & _). destruct (N1 o E). }
  destruct (GEN hs O x0 (at_ x0) HC HO HA HR ltac:(intros i Hi; apply (HI i Hi)) HX) as (o & -> & FO & H).
  - intros i Hi. cbn [Nat.add]. rewrite limit_0 by auto. change (INR 1) with 1. rewrite Rminus_diag_eq by reflexivity. rewrite Rabs_R0. destruct (HI i Hi) as [H1 _]. lra.
  - exists o. split; auto. split; auto. intros i Hi. specialize (H i Hi). cbn [Nat.add] in H. unfold ring_limit in H. rewrite (Nat.add_1_r (length hs)) in *. exact H.
Qed.
