(** PropsAccumulate16.v -- C55 for bf16 accumulators: quantized buffers of any number of peers, added one after the other into a bf16 buffer. *)
From Coq Require Import ZArith List Lia Bool Arith Reals Lra Psatz.
From Flocq Require Import Core Binary Bits.
From Verif Require Import Base Floats Dtypes Spec ApiSpec Context Api FloatFacts FloatFacts2 QuantLanes PropsQuantize PropsDequantize PropsRoundTrip RoundTripFacts PropsIdempotent MinMax ConfigSpec ConfigFacts
  PropsConfig PropsRepresent Bf16Spec Bf16Facts FloatFacts3 PropsDequantBf16 PropsRoundTripTypes PropsAccumulate PropsTests.
Import ListNotations.
Local Open Scope R_scope.

(** quantize, then dequantize(add) into the receiver's bf16 buffer *)
Definition peer_step16 (p : peer) (o : mem) (r : res mem) : Prop :=
  exists q, returns (p_data p) (p_buffer p) (quantize_call (p_arch p) (p_threads p) (p_qaddr p) (p_data_type p) (p_type p) (p_scale p) (p_zp p) (p_mode p) (p_thr p) (p_data p) (p_buffer p)) q /\
  match q with
  | Ok b => returns (b ++ p_extra p) o (dequantize_call (p_rarch p) (p_rthreads p) (p_oaddr p) (p_type p) DT_BF16 (p_scale p) (p_zp p) RO_ADD (length b) o) r
  | Abort => r = Abort
  | UB => r = UB
  end.
Definition peer_ok16 (outm : mem) (p : peer) : Prop :=
  let n := numel DT_BF16 (length outm) in
  buffers_ok (p_threads p) (p_data_type p) (p_type p) (p_data p) (p_buffer p) /\ numel (p_data_type p) (length (p_data p)) = n /\
  sizes_ok (length outm) n (p_rthreads p) /\ Forall is_byte (p_extra p) /\ p_extra p <> [] /\
  bf16_scale (p_scale p) /\ 0 < val (p_scale p) /\ (0 <= p_zp p <= code_max (p_type p))%Z /\ (p_mode p = RM_STOCHASTIC -> threshold (p_thr p)).
(** worst error of adding one element of a peer to an accumulator that is 0: the code error, the bf16 rounding of the decoded value and of the sum *)
Definition p_error16 (p : peer) (i : nat) : R :=
  val (p_scale p) * (match p_mode p with RM_NEAREST => / 2 | RM_STOCHASTIC => 1 end + bpow radix2 (-11)) + / 126 * (Rabs (p_x p i) + 2 * val (p_scale p)) + bpow radix2 (-126).

Lemma peer_adds16 outm p r : peer_ok16 outm p -> peer_fits (numel DT_BF16 (length outm)) p -> Forall is_byte outm -> old_ok DT_BF16 outm (numel DT_BF16 (length outm)) ->
  peer_step16 p outm r ->
  exists o, r = Ok o /\ length o = length outm /\ Forall is_byte o /\
    forall i, (i < numel DT_BF16 (length outm))%nat ->
      finite (elem_at DT_BF16 o i) /\
      Rabs (val (elem_at DT_BF16 o i) - (val (elem_at DT_BF16 outm i) + p_x p i)) <= p_error16 p i + / 250 * Rabs (val (elem_at DT_BF16 outm i)).
Proof.
  intros (HB & Hn & HS & He & Hne & Hs & Hp & Hz & Ht) HF Hob Ho (q & HQ & HD). pose proof HB as (Hfp & Hq & _). pose proof (code_max_range _ Hq) as Hm.
  set (n := numel DT_BF16 (length outm)) in *. pose proof (bf16_scale_normal _ Hs) as Hsn.
  assert (Hz22 : (Z.abs (p_zp p) <= 2 ^ 22)%Z) by lia. assert (Hbt : float_type DT_BF16) by (right; reflexivity).
  assert (HI : forall i, (i < n)%nat -> quantizable (p_scale p) (elem_at (p_data_type p) (p_data p) i)).
  { intros i Hi. destruct (HF i Hi). eapply peer_quantizable; eauto. }
  destruct (quantize_near_rm (p_arch p) _ (p_qaddr p) _ _ _ _ _ _ _ _ q HB (normal_good _ Hsn) Hz22 Ht) as (b & -> & HLp & Hby & _); auto.
  { rewrite Hn. exact HI. }
  destruct (packed_buffers _ (p_rthreads p) _ DT_BF16 _ _ _ b (p_extra p) outm HB Hbt HLp Hby He Hne (eq_sym Hn) HS) as [HB' _].
  destruct (accumulate_near (p_arch p) (p_threads p) (p_qaddr p) (p_rarch p) (p_rthreads p) (p_oaddr p) (p_data_type p) DT_BF16 (p_type p) (p_scale p) (p_zp p) (p_mode p) (p_thr p)
    (p_data p) (p_buffer p) b (p_extra p) outm r (/ 8192)) as (o & -> & L & _ & V); auto.
  { lra. }
  destruct (dequantize_bf16 _ _ _ _ _ _ _ _ _ _ _ HB' Hz22 Hob HD) as (o1 & E & _ & Bo & _). injection E as <-.
  exists o. split; auto. split; auto. split; auto. intros i Hi. destruct (HF i Hi) as [_ Hx]. fold n in V. specialize (V i Hi Hx). cbv zeta in V. destruct V as [F V]. split; auto.
  cbn [wanted store_bound dequant_rel] in V. eapply Rle_trans; [exact V|]. unfold p_error16. fold (p_x p i). change (bpow radix2 (-12)) with (/ 4096). change (bpow radix2 (-11)) with (/ 2048).
  pose proof (Rabs_pos (p_x p i)) as X0. set (X := Rabs (p_x p i)) in *. set (O := Rabs (val (elem_at DT_BF16 outm i))). set (s := val (p_scale p)) in *.
  set (T := bpow radix2 (-126)). clearbody X O s T. destruct (p_mode p); cbn [code_error]; nra.
Qed.

(** k peers and a bf16 accumulator: the element is within the sum of the peers' errors of the exact sum of the old value and the peers' original values,
    plus ((1 + 1/250)^k - 1) of the sum of all magnitudes: a bf16 accumulator loses up to 0.4% of the magnitudes involved with every buffer added. *)
Theorem C55_all_reduce_bf16 ps outm r :
  let n := numel DT_BF16 (length outm) in
  Forall (peer_ok16 outm) ps -> Forall (peer_fits n) ps -> Forall is_byte outm -> chain peer_step16 ps outm r ->
  let mass i := Rabs (val (elem_at DT_BF16 outm i)) + rsum (fun p => Rabs (p_x p i) + p_error16 p i) ps in
  let grow := (1 + / 250) ^ length ps in
  (forall i, (i < n)%nat -> finite (elem_at DT_BF16 outm i) /\ mass i * grow <= bpow radix2 118) ->
  exists o, r = Ok o /\ length o = length outm /\
    forall i, (i < n)%nat ->
      finite (elem_at DT_BF16 o i) /\
      Rabs (val (elem_at DT_BF16 o i) - (val (elem_at DT_BF16 outm i) + rsum (fun p => p_x p i) ps)) <= rsum (fun p => p_error16 p i) ps + (grow - 1) * mass i.
Proof.
  intros n Hok Hf Hob C. assert (En : n = numel DT_BF16 (length outm)) by reflexivity. clearbody n. revert Hok Hf Hob En.
  assert (PE : forall o p i, peer_ok16 o p -> 0 <= p_error16 p i).
  { intros o p i (_ & _ & _ & _ & _ & _ & Hp & _). unfold p_error16. pose proof (Rabs_pos (p_x p i)). pose proof (bpow_ge_0 radix2 (-126)). pose proof (bpow_ge_0 radix2 (-11)).
    assert (0 <= val (p_scale p) * (match p_mode p with RM_NEAREST => / 2 | RM_STOCHASTIC => 1 end + bpow radix2 (-11))) by (apply Rmult_le_pos; [lra|destruct (p_mode p); lra]). lra. }
  assert (MP : forall o qs i, Forall (peer_ok16 o) qs -> 0 <= rsum (fun p => Rabs (p_x p i) + p_error16 p i) qs).
  { intros o qs i. induction 1 as [|p qs Hp _ IH]; [apply Rle_refl|]. rewrite rsum_cons. specialize (PE o p i Hp). pose proof (Rabs_pos (p_x p i)). lra. }
  induction C as [o|p ps o o' r S C IH|p ps o r S N]; intros Hok Hf Hob En mass grow HM.
  - exists o. split; auto. split; auto. intros i Hi. destruct (HM i Hi) as [F _]. split; auto. unfold grow, mass. cbn [length pow]. unfold rsum. cbn [fold_right].
    rewrite Rplus_0_r. rewrite Rminus_diag_eq by auto. rewrite Rabs_R0. lra.
  - inversion Hok as [|? ? K1 K2]; inversion Hf as [|? ? F1 F2]; subst.
    set (P := (1 + / 250) ^ length ps). assert (P1 : 1 <= P) by (apply pow_R1_Rle; lra). assert (EG : grow = (1 + / 250) * P) by reflexivity.
    assert (HO : old_ok DT_BF16 o (numel DT_BF16 (length o))).
    { intros i Hi. destruct (HM i Hi) as [F B]. split; auto. eapply Rle_trans; [|exact B]. unfold mass. rewrite rsum_cons. pose proof (MP o ps i K2). pose proof (PE o p i K1). pose proof (Rabs_pos (p_x p i)).
      pose proof (Rabs_pos (val (elem_at DT_BF16 o i))). rewrite EG. set (a := Rabs (val (elem_at DT_BF16 o i))) in *.
      apply Rle_trans with (a * 1); [lra|]. apply Rmult_le_compat; try lra; nra. }
    destruct (peer_adds16 o p (Ok o') K1 F1 Hob HO S) as (o1 & E & L & Bo & V). injection E as <-.
    assert (K2' : Forall (peer_ok16 o') ps) by (eapply Forall_impl; [|exact K2]; intros a; unfold peer_ok16; rewrite L; auto).
    destruct IH as (o2 & -> & L2 & V2); auto.
    + intros i Hi. destruct (V i Hi) as [F W]. split; auto. destruct (HM i Hi) as [_ B]. eapply Rle_trans; [|exact B]. fold P. rewrite EG. unfold mass. rewrite rsum_cons.
      pose proof (MP o ps i K2) as M0. set (M := rsum (fun p => Rabs (p_x p i) + p_error16 p i) ps) in *. pose proof (PE o p i K1) as E0. set (e := p_error16 p i) in *.
      pose proof (Rabs_pos (p_x p i)) as X0. pose proof (Rabs_pos (val (elem_at DT_BF16 o i))) as A0. set (a := val (elem_at DT_BF16 o i)) in *. set (x := p_x p i) in *. set (a' := val (elem_at DT_BF16 o' i)) in *.
      assert (B' : Rabs a' <= (1 + / 250) * Rabs a + Rabs x + e).
      { pose proof (Rabs_triang (a' - (a + x)) (a + x)) as T. replace (a' - (a + x) + (a + x)) with a' in T by ring. pose proof (Rabs_triang a x). lra. }
      rewrite <- Rmult_assoc. apply Rmult_le_compat_r; lra.
    + exists o2. split; auto. split; [congruence|]. intros i Hi. destruct (V2 i Hi) as [F W2]. split; auto. destruct (V i Hi) as [_ W]. fold P in W2. rewrite EG. unfold mass. rewrite !rsum_cons.
      pose proof (MP o ps i K2) as M0. set (M := rsum (fun p => Rabs (p_x p i) + p_error16 p i) ps) in *. pose proof (PE o p i K1) as E0. set (e := p_error16 p i) in *.
      set (ES := rsum (fun p => p_error16 p i) ps) in *. set (XS := rsum (fun p => p_x p i) ps) in *.
      pose proof (Rabs_pos (p_x p i)) as X0. pose proof (Rabs_pos (val (elem_at DT_BF16 o i))) as A0. set (a := val (elem_at DT_BF16 o i)) in *. set (x := p_x p i) in *. set (a' := val (elem_at DT_BF16 o' i)) in *. set (z := val (elem_at DT_BF16 o2 i)) in *.
      assert (B' : Rabs a' <= (1 + / 250) * Rabs a + Rabs x + e).
      { pose proof (Rabs_triang (a' - (a + x)) (a + x)) as T. replace (a' - (a + x) + (a + x)) with a' in T by ring. pose proof (Rabs_triang a x). lra. }
      replace (z - (a + (x + XS))) with ((z - (a' + XS)) + (a' - (a + x))) by ring. eapply Rle_trans; [apply Rabs_triang|].
      assert (G : (P - 1) * (Rabs a' + M) <= (P - 1) * ((1 + / 250) * Rabs a + Rabs x + e + M)) by (apply Rmult_le_compat_l; lra).
      assert (0 <= P * (Rabs x + e + M)) by (apply Rmult_le_pos; lra). nra.
  - inversion Hok as [|? ? K1 K2]; inversion Hf as [|? ? F1 F2]; subst.
    assert (HO : old_ok DT_BF16 o (numel DT_BF16 (length o))).
    { intros i Hi. destruct (HM i Hi) as [F B]. split; auto. eapply Rle_trans; [|exact B]. unfold mass. rewrite rsum_cons. pose proof (MP o ps i K2). pose proof (PE o p i K1). pose proof (Rabs_pos (p_x p i)).
      pose proof (Rabs_pos (val (elem_at DT_BF16 o i))). assert (P1 : 1 <= grow) by (apply pow_R1_Rle; lra). set (a := Rabs (val (elem_at DT_BF16 o i))) in *.
      apply Rle_trans with (a * 1); [lra|]. apply Rmult_le_compat; try lra; nra. }
    destruct (peer_adds16 o p r K1 F1 Hob HO S) as (o1 & E & _). destruct (N o1 E).
Qed.

(** Parameters computed from the peer's own data satisfy the hypotheses of the bf16 bound too. *)
Theorem C55_computed_parameters_fit_bf16 a blocks p n lo hi :
  a <> SSE42 -> float_type (p_data_type p) -> quant_type (p_type p) -> finite_data (p_data_type p) (p_data p) n -> block_cover n blocks ->
  data_range (p_data_type p) (p_data p) n lo hi -> lo <= 0 <= hi -> bpow radix2 (-112) <= hi - lo <= bpow radix2 100 ->
  compute_quant_config_from_data a (p_data_type p) (p_type p) (p_data p) blocks = Ok (p_scale p, p_zp p) ->
  peer_fits n p /\ bf16_scale (p_scale p) /\ 0 < val (p_scale p) /\ (0 <= p_zp p <= code_max (p_type p))%Z.
Proof.
  intros Ha Hfp Hq HD HBl HR H0 HB EC.
  destruct (config_usable a blocks (p_data_type p) DT_BF16 (p_type p) (p_scale p) (p_zp p) (p_data p) n lo hi Ha Hfp (or_intror eq_refl) Hq HD HBl HR H0 HB EC) as (S & [Hp _] & Hz & HF & _).
  split; [|auto]. intros i Hi. split; [apply HD; auto|apply HF; auto].
Qed.
