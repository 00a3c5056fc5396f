(** PropsBlocks.v -- C73: block-wise quantization (every block of a tensor quantized with parameters computed from that block). *)
From Coq Require Import ZArith List Lia Bool Arith ZifyBool ZifyNat Reals Lra Psatz.
From Flocq Require Import Core Binary Bits.
From Verif Require Import Base Floats Simd Dtypes Spec ApiSpec QuantKernels DequantKernels ExecFacts FloatFacts QuantFacts QuantKernelFacts
  QuantGenericFacts DequantFacts DequantGenericFacts QuantLanes Context ContextFacts Footprint QuantizeFacts DequantizeFacts Api PropsQuantize Schedule
  PropsMemory FloatFacts2 PropsDequantize PropsRoundTrip RoundTripFacts PropsIdempotent MinMax MinMaxFacts ConfigSpec F64Facts ConfigFacts PropsConfig PropsRepresent
  Bf16Spec Bf16Facts FloatFacts3 PropsDequantBf16 PropsRoundTripTypes PropsNaive PropsConstant PropsChunks.
Import ListNotations.
Local Open Scope nat_scope.

(** elements s .. s+len-1 of a float buffer *)
Definition block (d : dtype) (s len : nat) (m : mem) : mem := slice (stride d * s) (stride d * len) m.
Definition not_constant (d : dtype) (m : mem) (n : nat) : Prop := exists i j, i < n /\ j < n /\ val (elem_at d m i) <> val (elem_at d m j).

Lemma block_elem d s len m i : float_type d -> i < len -> elem_at d (block d s len m) i = elem_at d m (s + i).
Proof. intros H. apply elem_at_slice. exact H. Qed.
Lemma block_finite d s len m n : float_type d -> finite_data d m n -> s + len <= n -> finite_data d (block d s len m) len.
Proof.
  intros Hd (B & L & F) H. split; [|split].
  - unfold block, slice. apply Forall_forall. intros x Hx. rewrite Forall_forall in B. apply B.
    rewrite <- (firstn_skipn (stride d * s) m). apply in_or_app. right. rewrite <- (firstn_skipn (stride d * len) (skipn _ m)). apply in_or_app. left. exact Hx.
  - unfold block, slice. rewrite firstn_length, skipn_length, L. nia.
  - intros i Hi. rewrite block_elem by auto. apply F. lia.
Qed.
Lemma range_total d m n : 0 < n -> exists lo hi, data_range d m n lo hi.
Proof.
  intros H. destruct n as [|n]; [lia|]. clear H. induction n as [|n (lo & hi & (il & Hl & El) & (ih & Hh & Eh) & HR)].
  - exists (val (elem_at d m 0)), (val (elem_at d m 0)). split; [exists 0; auto|]. split; [exists 0; auto|]. intros i Hi. assert (i = 0) by lia. subst. lra.
  - set (x := val (elem_at d m (S n))). exists (Rmin lo x), (Rmax hi x). split; [|split].
    + unfold Rmin. destruct (Rle_dec lo x); [exists il; split; [lia|auto]|exists (S n); split; [lia|reflexivity]].
    + unfold Rmax. destruct (Rle_dec hi x); [exists (S n); split; [lia|reflexivity]|exists ih; split; [lia|auto]].
    + intros i Hi. pose proof (Rmin_l lo x). pose proof (Rmin_r lo x). pose proof (Rmax_l hi x). pose proof (Rmax_r hi x).
      destruct (Nat.eq_dec i (S n)) as [->|N]; [fold x; lra|]. specialize (HR i ltac:(lia)). lra.
Qed.
Lemma block_range d s len m n lo hi lo' hi' : float_type d -> s + len <= n -> data_range d m n lo hi -> data_range d (block d s len m) len lo' hi' -> (lo <= lo' <= hi' /\ hi' <= hi)%R.
Proof.
  intros Hd H (_ & _ & R) ((i & Hi & <-) & (j & Hj & <-) & R'). specialize (R' i Hi) as R1. specialize (R' j Hj) as R2. rewrite !block_elem in * by auto.
  pose proof (R (s + i) ltac:(lia)). pose proof (R (s + j) ltac:(lia)). lra.
Qed.
Lemma scale_mono dq lo hi lo' hi' : quant_type dq -> (lo <= lo' <= hi' /\ hi' <= hi)%R -> (0 <= config_scale dq lo' hi' <= config_scale dq lo hi)%R.
Proof.
  intros Hq H. pose proof (code_max_R dq Hq) as Q. assert (P : (0 < / IZR (code_max dq))%R) by (apply Rinv_0_lt_compat; lra).
  assert (R0 : RN64 0 = 0%R) by (apply round_0; auto with typeclass_instances).
  assert (M1 : (0 <= RN64 (hi' - lo'))%R) by (rewrite <- R0; apply RN64_le; lra).
  assert (M2 : (RN64 (hi' - lo') <= RN64 (hi - lo))%R) by (apply RN64_le; lra).
  unfold config_scale, config_step. split.
  - assert (Z0 : RN32 0 = 0%R) by (apply round_0; auto with typeclass_instances). rewrite <- Z0. apply RN32_le. rewrite <- R0. apply RN64_le. unfold Rdiv. apply Rmult_le_pos; lra.
  - apply RN32_le, RN64_le. unfold Rdiv. apply Rmult_le_compat_r; lra.
Qed.

(** ** The step of a block is at most the step of the tensor, unless the block is constant. *)
Theorem C73_smaller_step a a' blocks blocks' d dq m n s len scale zp scale' zp' :
  a <> SSE42 -> a' <> SSE42 -> float_type d -> quant_type dq -> finite_data d m n -> s + len <= n -> block_cover n blocks -> block_cover len blocks' ->
  not_constant d (block d s len m) len ->
  compute_quant_config_from_data a d dq m blocks = Ok (scale, zp) -> compute_quant_config_from_data a' d dq (block d s len m) blocks' = Ok (scale', zp') ->
  (0 <= val scale' <= val scale)%R.
Proof.
  intros Ha Ha' Hd Hq FD H BC BC' (i & j & Hi & Hj & N) E E'.
  destruct (range_total d m n ltac:(lia)) as (lo & hi & R). destruct (range_total d (block d s len m) len ltac:(lia)) as (lo' & hi' & R').
  pose proof (block_range d s len m n lo hi lo' hi' Hd H R R') as B. pose proof (block_finite d s len m n Hd FD H) as FD'.
  assert (L' : (lo' < hi')%R).
  { destruct R' as (_ & _ & R'). pose proof (R' i Hi) as R1. pose proof (R' j Hj) as R2. destruct (Rtotal_order (val (elem_at d (block d s len m) i)) (val (elem_at d (block d s len m) j))) as [X|[X|X]]; [lra|contradiction|lra]. }
  destruct (C21_documented_parameters a d dq m n blocks lo hi Ha Hd Hq FD BC R ltac:(lra)) as (s1 & E1 & _ & V1). rewrite E1 in E. injection E as <- _.
  destruct (C21_documented_parameters a' d dq _ len blocks' lo' hi' Ha' Hd Hq FD' BC' R' L') as (s2 & E2 & _ & V2). rewrite E2 in E'. injection E' as <- _.
  rewrite V1, V2. apply scale_mono; auto.
Qed.

(** ** ... and a block whose values straddle zero round-trips within the bound of the whole tensor's step. *)
Theorem C73_block_error aw blocksw m ntot s scalew zpw a blocks A nt oaddr A2 nt2 oaddr2 din dout dq scale zp rm thr pk p extra outm r lo hi :
  let n := numel dout (length outm) in
  let b := block din s n m in
  (* the whole tensor and its parameters *)
  aw <> SSE42 -> finite_data din m ntot -> block_cover ntot blocksw -> s + n <= ntot -> compute_quant_config_from_data aw din dq m blocksw = Ok (scalew, zpw) ->
  (* the block, quantized and dequantized with its own parameters *)
  a <> SSE42 -> block_cover n blocks -> data_range din b n lo hi -> (lo <= 0 <= hi)%R -> (bpow radix2 (-112) <= hi - lo <= bpow radix2 100)%R ->
  compute_quant_config_from_data a din dq b blocks = Ok (scale, zp) ->
  buffers_ok nt din dq b pk -> float_type dout -> sizes_ok (length outm) n nt2 -> Forall is_byte outm ->
  (rm = RM_STOCHASTIC -> threshold thr) -> Forall is_byte extra -> extra <> [] ->
  returns b pk (quantize_call A nt oaddr din dq scale zp rm thr b pk) (Ok p) ->
  returns (p ++ extra) outm (dequantize_call A2 nt2 oaddr2 dq dout scale zp RO_SET (length p) outm) r ->
  exists o, r = Ok o /\ length o = length outm /\
    forall i, i < n -> let x := val (elem_at din m (s + i)) in
      finite (elem_at dout o i) /\
      (Rabs (val (elem_at dout o i) - x) <=
        val scalew * (match rm with RM_NEAREST => / 2 | RM_STOCHASTIC => 1 end + bpow radix2 (-11)) +
        match dout with DT_BF16 => / 256 * (Rabs x + 2 * val scalew) | _ => 0 end)%R.
Proof.
  intros n b Haw FD BCw Hs Ew Ha BC R H0 W E HB Hdo HS Hob Ht He Hne HQ HD. pose proof HB as (Hd & Hq & _). pose proof (bpow_gt_0 radix2 (-112)) as P0.
  pose proof (block_finite din s n m ntot Hd FD Hs : finite_data din b n) as FD'.
  assert (Nb : numel din (length b) = n).
  { destruct FD' as (_ & -> & _). unfold numel. rewrite Nat.mul_comm. apply Nat.div_mul. destruct Hd as [->| ->]; discriminate. }
  destruct (C23_all_types a blocks A nt oaddr A2 nt2 oaddr2 din dout dq scale zp rm thr b pk p extra outm r lo hi Ha FD' BC R H0 W E HB Hdo Nb HS Hob Ht He Hne HQ HD) as (o & -> & L & H).
  exists o. split; auto. split; auto. intros i Hi x. destruct (H i Hi) as [F B]. unfold b in B. rewrite block_elem in B by auto. fold x in B. split; auto.
  assert (NC : not_constant din b n).
  { destruct R as ((i1 & Hi1 & E1) & (i2 & Hi2 & E2) & _). exists i1, i2. split; auto. split; auto. rewrite E1, E2. lra. }
  destruct (C73_smaller_step aw a blocksw blocks din dq m ntot s n scalew zpw scale zp Haw Ha Hd Hq FD Hs BCw BC NC Ew E) as [S0 S1].
  eapply Rle_trans; [exact B|]. pose proof (bpow_gt_0 radix2 (-11)) as P1.
  apply Rplus_le_compat.
  - apply Rmult_le_compat_r; [destruct rm; lra|exact S1].
  - destruct dout; try lra.
Qed.

(** ** Blocks for which computed parameters are useless although those of the whole tensor are not: a constant block of small values comes back
    as zeros ... *)
Theorem C73_constant_block_refuted a blocks A nt oaddr A2 nt2 oaddr2 din dq scale zp thr inm pk p extra outm r c :
  let n := numel DT_F32 (length outm) in
  finite_data din inm n -> 0 < n -> block_cover n blocks -> (forall i, i < n -> val (elem_at din inm i) = c) -> (Rabs c < pred_half)%R ->
  compute_quant_config_from_data a din dq inm blocks = Ok (scale, zp) ->
  buffers_ok nt din dq inm pk -> numel din (length inm) = n -> sizes_ok (length outm) n nt2 -> Forall is_byte extra -> extra <> [] ->
  returns inm pk (quantize_call A nt oaddr din dq scale zp RM_NEAREST thr inm pk) (Ok p) ->
  returns (p ++ extra) outm (dequantize_call A2 nt2 oaddr2 dq DT_F32 scale zp RO_SET (length p) outm) r ->
  exists o, r = Ok o /\ length o = length outm /\ forall i, i < n -> val (elem_at DT_F32 o i) = 0%R.
Proof.
  intros n FD Hn BC HC Hc EC HB Hnn HS He Hne HQ HD.
  assert (PH : (pred_half < / 2)%R) by (unfold pred_half; pose proof (bpow_gt_0 radix2 (-25)); lra).
  destruct (C54_constant_round_trip a blocks A nt oaddr A2 nt2 oaddr2 din dq scale zp thr inm pk p extra outm r c FD Hn BC HC) as (Ez & _ & o & -> & L & H); auto.
  - eapply Rlt_trans; [exact Hc|]. change (bpow radix2 30) with 1073741824%R. lra.
  - lra.
  - exists o. split; auto. split; auto. intros i Hi. destruct (H i Hi) as [V _]. rewrite V.
    assert (R0 : round_half_away c = 0%Z).
    { apply rha_near. rewrite Rminus_0_r. lra. }
    rewrite R0. f_equal. pose proof HB as (_ & Hq & _). unfold clamp. destruct Hq as [->|[->| ->]]; subst zp; reflexivity.
Qed.
(** ... and in a block far from zero every element loses more than half of its value. *)
Theorem C73_far_block_refuted a blocks A2 nt2 oaddr2 dq scale zp inm pk in_size outm r lo hi :
  let n := numel DT_F32 (length outm) in
  a <> SSE42 -> finite_data DT_F32 inm n -> block_cover n blocks -> data_range DT_F32 inm n lo hi -> (bpow radix2 (-118) <= hi - lo <= bpow radix2 100)%R ->
  (3 * (hi - lo) <= lo)%R ->
  compute_quant_config_from_data a DT_F32 dq inm blocks = Ok (scale, zp) ->
  dq_buffers nt2 dq DT_F32 pk in_size outm ->
  (* whatever codes [pk] holds *)
  returns pk outm (dequantize_call A2 nt2 oaddr2 dq DT_F32 scale zp RO_SET in_size outm) r ->
  exists o, r = Ok o /\ forall i, i < n -> (val (f32_at inm i) / 2 < Rabs (val (f32_at o i) - val (f32_at inm i)))%R.
Proof.
  intros n Ha FD BC DR W Far HC HB R1. pose proof (bpow_gt_0 radix2 (-118)) as P0.
  destruct (C23_zero_outside_refuted a blocks A2 nt2 oaddr2 dq scale zp inm n pk in_size outm r lo hi Ha FD BC DR W HC HB R1) as (o & -> & H1 & _).
  exists o. split; auto. intros i Hi. destruct (H1 ltac:(lra)) as [_ H2]. specialize (H2 i Hi). destruct DR as (_ & _ & D3). specialize (D3 i Hi).
  change (elem_at DT_F32 inm i) with (f32_at inm i) in D3. change (bpow radix2 (-20)) with (/ 1048576)%R in H2. rewrite Rabs_left; lra.
Qed.

(** ** Packed blocks that fill whole bytes (all but possibly the last) take together exactly the bytes of the packed tensor. *)
Definition total (l : list nat) : nat := fold_right Nat.add 0 l.
Theorem C73_block_sizes dq lens last : quant_type dq -> Forall (whole_bytes dq) lens ->
  total (map (bytes_for dq) (lens ++ [last])) = bytes_for dq (total (lens ++ [last])).
Proof.
  intros Hq. induction lens as [|n l IH]; intros F; cbn [map total fold_right app]; [rewrite !Nat.add_0_r; reflexivity|].
  inversion F as [|? ? F1 F2]; subst. fold (total (map (bytes_for dq) (l ++ [last]))). fold (total (l ++ [last])). rewrite IH by auto.
  destruct (bytes_for_add dq n (total (l ++ [last])) Hq F1) as [E _]. symmetry. exact E.
Qed.
