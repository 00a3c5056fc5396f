(** Witnesses11.v -- concrete instances of the theorems of PropsAnyThreads.v (C04, C11, C13, C14, C15, C29, C31). *)
From Coq Require Import ZArith List Lia Bool Arith ZifyBool ZifyNat Reals Lra.
From Flocq Require Import Core Binary Bits.
From Verif Require Import Base Floats Dtypes Spec ApiSpec Context Api FloatFacts FloatFacts2 PropsQuantize PropsDequantize PropsRoundTrip PathSpec PropsPaths RoundTripFacts PropsIdempotent
  AnyInputSpec PropsAnyInput PropsBf16Zero PropsAnyThreads Witnesses Witnesses4 Witnesses5.
Import ListNotations.

(** NaN, infinities and 3e38 in stochastic mode: undefined for every thread count and CPU alike; ordinary data: the same bytes *)
Example C04_any_data_witness A A' nt nt' oaddr oaddr' r r' : few nt -> few nt' ->
  returns (sample DT_BF16) (sample_out DT_UINT2) (quantize_call A nt oaddr DT_BF16 DT_UINT2 f_half 2 RM_STOCHASTIC thr4 (sample DT_BF16) (sample_out DT_UINT2)) r ->
  returns (sample DT_BF16) (sample_out DT_UINT2) (quantize_call A' nt' oaddr' DT_BF16 DT_UINT2 f_half 2 RM_STOCHASTIC thr4 (sample DT_BF16) (sample_out DT_UINT2)) r' -> r = r'.
Proof.
  intros Hn Hn' HR HR'. assert (Hd : float_type DT_BF16) by (right; reflexivity). assert (Hq : quant_type DT_UINT2) by (left; reflexivity).
  exact (C04_stochastic_any_data A A' nt nt' oaddr oaddr' DT_BF16 DT_UINT2 f_half 2 thr4 _ _ _ r r' (sample_buffers nt _ _ Hd Hq Hn) (sample_buffers nt' _ _ Hd Hq Hn') quarter_threshold ltac:(lia) HR HR').
Qed.
(** all 64 odd elements take the vector path on every x86 kernel set with an aligned output: the AVX-512 and SSE sets agree, scale zero included *)
Example C04_same_paths_witness A A' r r' : x86_vector A -> x86_vector A' ->
  returns odd_data (repeat 0%Z 64) (quantize_call A 1 0 DT_F32 DT_UINT8 f_zero 2 RM_NEAREST thr4 odd_data (repeat 0%Z 64)) r ->
  returns odd_data (repeat 0%Z 64) (quantize_call A' 1 0 DT_F32 DT_UINT8 f_zero 2 RM_NEAREST thr4 odd_data (repeat 0%Z 64)) r' -> r = r'.
Proof.
  intros HA HA' HR HR'. assert (HL : numel DT_F32 (length odd_data) = 64) by (vm_compute; reflexivity).
  assert (HV : forall A i, x86_vector A -> i < 64 -> vector_path A DT_F32 DT_UINT8 0 64 1 i = true).
  { intros B i HB Hi. assert (H : forallb (fun i => vector_path B DT_F32 DT_UINT8 0 64 1 i) (seq 0 64) = true) by (destruct HB as [->|[->|[->| ->]]]; vm_compute; reflexivity).
    rewrite forallb_forall in H. apply H, in_seq. lia. }
  refine (C04_nearest_same_paths A A' 1 1 0 0 DT_F32 DT_UINT8 f_zero 2 thr4 thr4 odd_data _ _ r r' odd_buffers odd_buffers ltac:(lia) _ HR HR').
  rewrite HL. intros i Hi v. unfold v. rewrite !HV by auto. split; auto. intros _.
  destruct HA as [->|[->|[->| ->]]]; destruct HA' as [->|[->|[->| ->]]]; split; discriminate.
Qed.
(** 2 * 1.25 = 2.5 lies between the codes for 2 and 3 *)
Example C29_neighbour_witness A nt oaddr r : few nt ->
  returns (sample DT_F32) (sample_out DT_UINT8) (quantize_call A nt oaddr DT_F32 DT_UINT8 f_half 2 RM_STOCHASTIC thr4 (sample DT_F32) (sample_out DT_UINT8)) r ->
  exists o, r = Ok o /\ (code_at DT_UINT8 o 1 = 4 \/ code_at DT_UINT8 o 1 = 5)%Z /\ code_at DT_UINT8 o 0 = 2%Z.
Proof.
  intros Hn HR. assert (Hd : float_type DT_F32) by (left; reflexivity). assert (Hq : quant_type DT_UINT8) by (right; right; reflexivity). destruct (sample_len _ Hd) as [_ HL].
  destruct (C29_neighbour A nt oaddr DT_F32 DT_UINT8 f_half 2 thr4 _ _ r (sample_buffers nt _ _ Hd Hq Hn) half_good ltac:(lia) quarter_threshold) as (o & -> & HC); auto.
  { rewrite HL. intros. apply sample_quantizable; auto. }
  exists o. split; auto. rewrite HL in HC.
  assert (Y : forall i, i < 70 -> RN32 (val (elem_at DT_F32 (sample DT_F32) i) * RN32 (1 / val f_half)) = (2 * sval i)%R) by (intros; apply (sample_scaled DT_F32); auto).
  destruct (HC 1 ltac:(lia)) as (t & -> & T & _). destruct (HC 0 ltac:(lia)) as (t0 & -> & _ & _ & T0). rewrite Y in T, T0 by lia. cbn [sval Nat.modulo Nat.divmod nth fst snd Nat.sub] in T, T0.
  change (sval 1) with (5 / 4)%R in T. change (sval 0) with 0%R in T0. rewrite (T0 0%Z) by (cbn; lra). split; [|reflexivity].
  rewrite Rlt_bool_false in T by lra. unfold Ztrunc in T. rewrite Rlt_bool_false in T by lra. rewrite (Zfloor_imp 2) in T by (cbn; lra). change (bit_size DT_UINT8) with 8. unfold clamp. lia.
Qed.
Example C31_any_data_witness A nt oaddr r : few nt ->
  returns (sample DT_F32) (sample_out DT_UINT4) (quantize_call A nt oaddr DT_F32 DT_UINT4 f_half 2 RM_STOCHASTIC thr4 (sample DT_F32) (sample_out DT_UINT4)) r ->
  exists o, r = Ok o /\ code_at DT_UINT4 o 1 = code_at DT_UINT4 o 66.
Proof.
  intros Hn HR. assert (Hd : float_type DT_F32) by (left; reflexivity). assert (Hq : quant_type DT_UINT4) by (right; left; reflexivity). destruct (sample_len _ Hd) as [_ HL].
  destruct (C31_any_data A nt oaddr DT_F32 DT_UINT4 f_half 2 thr4 _ _ r (sample_buffers nt _ _ Hd Hq Hn) quarter_threshold ltac:(lia) HR) as [->|(o & -> & HC)].
  - destruct (C29_neighbour A nt oaddr DT_F32 DT_UINT4 f_half 2 thr4 _ _ UB (sample_buffers nt _ _ Hd Hq Hn) half_good ltac:(lia) quarter_threshold) as (o & E & _); auto; [|discriminate].
    rewrite HL. intros. apply sample_quantizable; auto.
  - exists o. split; auto. apply HC; rewrite ?HL; try lia. rewrite !sample_bits_at by (auto; lia). reflexivity.
Qed.
(** -3 <= 3/4 <= 5/4 <= 200 *)
Example C11_stochastic_witness A nt oaddr dq : quant_type dq -> few nt ->
  exists o, returns (sample DT_F32) (sample_out dq) (quantize_call A nt oaddr DT_F32 dq f_half 2 RM_STOCHASTIC thr4 (sample DT_F32) (sample_out dq)) (Ok o) /\
    (code_at dq o 2 <= code_at dq o 4 /\ code_at dq o 4 <= code_at dq o 66 /\ code_at dq o 66 <= code_at dq o 3)%Z.
Proof.
  intros Hq Hn. assert (Hd : float_type DT_F32) by (left; reflexivity). destruct (sample_len _ Hd) as [_ HL]. destruct (quant_sample A nt oaddr DT_F32 dq RM_STOCHASTIC Hd Hq Hn) as (o & HR & _).
  exists o. split; auto. assert (P : (0 < val f_half)%R) by (destruct half_ok as [_ ->]; lra).
  pose proof (C11_stochastic_monotone A nt oaddr DT_F32 dq f_half 2 thr4 _ _ o (sample_buffers nt _ _ Hd Hq Hn) half_good P quarter_threshold ltac:(lia) HR) as M. rewrite HL in M.
  assert (V : forall i, i < 70 -> val (elem_at DT_F32 (sample DT_F32) i) = sval i) by (intros; apply sample_elem; auto).
  repeat split; apply M; try lia; rewrite !V by lia; unfold sval; cbn; lra.
Qed.
(** a NaN, +0, infinity, -0, ...: the zeros still get the zero point on every vector kernel set *)
Definition zero_odd : mem := concat (map (fun i => le_bytes 4 (nth (i mod 4) [0x7fc00000; 0; 0x7f800000; 0x80000000] 0)%Z) (seq 0 64)).
Example C13_any_data_witness A : x86_vector A ->
  exists o, returns zero_odd (repeat 0%Z 64) (quantize_call A 1 0 DT_F32 DT_UINT8 f_half 200 RM_NEAREST thr4 zero_odd (repeat 0%Z 64)) (Ok o) /\
    code_at DT_UINT8 o 1 = 200%Z /\ code_at DT_UINT8 o 3 = 200%Z.
Proof.
  intros HA. assert (Hd : float_type DT_F32) by (left; reflexivity). assert (Hq : quant_type DT_UINT8) by (right; right; reflexivity).
  assert (HL : numel DT_F32 (length zero_odd) = 64) by (vm_compute; reflexivity).
  assert (HB : buffers_ok 1 DT_F32 DT_UINT8 zero_odd (repeat 0%Z 64)).
  { split; auto. split; auto. split; [apply Forall_is_byte_b; vm_compute; reflexivity|]. split; [vm_compute; reflexivity|]. rewrite HL. change (length zero_odd) with 256. unfold sizes_ok. lia. }
  assert (HV : forall i, i < 64 -> vector_path A DT_F32 DT_UINT8 0 64 1 i = true).
  { intros i Hi. assert (H : forallb (fun i => vector_path A DT_F32 DT_UINT8 0 64 1 i) (seq 0 64) = true) by (destruct HA as [->|[->|[->| ->]]]; vm_compute; reflexivity).
    rewrite forallb_forall in H. apply H, in_seq. lia. }
  destruct (returns_total zero_odd (repeat 0%Z 64) (quantize_call A 1 0 DT_F32 DT_UINT8 f_half 200 RM_NEAREST thr4 zero_odd (repeat 0%Z 64))) as [r HR].
  destruct (C36_complete A 1 0 DT_F32 DT_UINT8 f_half 200 RM_NEAREST thr4 zero_odd (repeat 0%Z 64) r HB) as [_ K]; auto; [discriminate|lia|].
  destruct K as (o & -> & _). { rewrite HL. intros i Hi. unfold quantize_result. rewrite HL, HV by auto. discriminate. }
  exists o. split; auto.
  pose proof (C13_zero_any_data A 1 0 DT_F32 DT_UINT8 f_half 200 RM_NEAREST thr4 zero_odd (repeat 0%Z 64) o HB half_good ltac:(cbn; lia) ltac:(discriminate) HR) as C. rewrite HL in C.
  split; apply C; try lia; vm_compute; reflexivity.
Qed.
(** decoding what quantize stored with another scale and zero point *)
Example C14_any_data_witness A A' nt nt' oaddr oaddr' dq rm r : quant_type dq -> few nt -> few nt' ->
  exists p, returns (sample DT_BF16) (sample_out dq) (quantize_call A nt oaddr DT_BF16 dq f_half 2 rm thr4 (sample DT_BF16) (sample_out dq)) (Ok p) /\
    (returns (p ++ [0%Z]) (sample DT_F32) (dequantize_call A' nt' oaddr' dq DT_F32 f_one (-5) RO_SET (length p) (sample DT_F32)) r ->
     exists o, r = Ok o /\ forall i, i < 70 -> exists c, quantize_result A nt oaddr DT_BF16 dq rm thr4 f_half 2 (sample DT_BF16) i = Some c /\ f32_at o i = fmul (f32_of_Z (c - -5)) f_one).
Proof.
  intros Hq Hn Hn'. assert (Hd : float_type DT_BF16) by (right; reflexivity). assert (Hf : float_type DT_F32) by (left; reflexivity).
  destruct (sample_len _ Hd) as [_ HL]. destruct (sample_len _ Hf) as [_ HL'].
  destruct (quant_sample A nt oaddr DT_BF16 dq rm Hd Hq Hn) as (p & HR & _). exists p. split; auto. intros HD.
  assert (T : rm = RM_STOCHASTIC -> threshold thr4) by (intros _; apply quarter_threshold).
  assert (HN : numel DT_F32 (length (sample DT_F32)) = numel DT_BF16 (length (sample DT_BF16))) by congruence.
  assert (HS : sizes_ok (length (sample DT_F32)) (numel DT_F32 (length (sample DT_F32))) nt') by (rewrite HL'; apply sample_sizes; auto).
  assert (HX : Forall is_byte [0%Z]) by (apply Forall_cons; [unfold is_byte; lia|apply Forall_nil]).
  destruct (C14_any_data A A' nt nt' oaddr oaddr' DT_BF16 dq f_half f_one 2 (-5) rm thr4 (sample DT_BF16) (sample_out dq) p [0%Z] (sample DT_F32) r
    (sample_buffers nt _ _ Hd Hq Hn) T ltac:(lia) HR HN HS HX ltac:(discriminate) ltac:(lia) HD) as (o & -> & _ & H).
  exists o. rewrite HL in H. split; [reflexivity|exact H].
Qed.
(** stochastic requantization with scale 1/2, a power of two, gives the codes back *)
Example C15_stochastic_witness A A' nt oaddr dq : quant_type dq -> few nt ->
  exists o p, returns (packed dq) (sample DT_F32) (dequantize_call A nt oaddr dq DT_F32 f_half 1 RO_SET (bytes_for dq 70) (sample DT_F32)) (Ok o) /\
    returns o (sample_out dq) (quantize_call A' nt oaddr DT_F32 dq f_half 1 RM_STOCHASTIC thr4 o (sample_out dq)) (Ok p) /\
    forall i, i < 70 -> code_at dq p i = code_at dq (packed dq) i.
Proof.
  intros Hq Hn. assert (Hd : float_type DT_F32) by (left; reflexivity). destruct (sample_len _ Hd) as [_ HL]. destruct half_ok as [_ V].
  destruct (dequant_sample A nt oaddr DT_F32 dq 1 Hd Hq Hn ltac:(lia)) as (o & HD & _).
  destruct (returns_total o (sample_out dq) (quantize_call A' nt oaddr DT_F32 dq f_half 1 RM_STOCHASTIC thr4 o (sample_out dq))) as [r HR].
  destruct (C15_stochastic A nt oaddr A' nt oaddr dq f_half 1 thr4 (packed dq) (bytes_for dq 70) (sample DT_F32) o (sample_out dq) r (sample_dq nt dq _ Hd Hq Hn) half_normal ltac:(lia)
    (sample_bytes _) quarter_threshold HD) as (p & -> & _ & _ & H); auto.
  - rewrite HL. apply repeat_length.
  - rewrite HL. apply sample_sizes; auto.
  - exists o, p. split; auto. split; auto. rewrite HL in H. apply (H (-1)%Z). rewrite V. cbn. lra.
Qed.
(** the two calls of the refutation do return *)
Example C15_refuted_witness A A' oaddr oaddr' :
  exists o p, returns [13%Z] (repeat 0%Z 4) (dequantize_call A 1 oaddr DT_UINT8 DT_F32 tenth 0 RO_SET 1 (repeat 0%Z 4)) (Ok o) /\
    returns o [0%Z] (quantize_call A' 1 oaddr' DT_F32 DT_UINT8 tenth 0 RM_STOCHASTIC f_zero o [0%Z]) (Ok p) /\ code_at DT_UINT8 p 0 = 14%Z.
Proof.
  destruct (returns_total [13%Z] (repeat 0%Z 4) (dequantize_call A 1 oaddr DT_UINT8 DT_F32 tenth 0 RO_SET 1 (repeat 0%Z 4))) as [r HD].
  assert (HB : dq_buffers 1 DT_UINT8 DT_F32 [13%Z] 1 (repeat 0%Z 4)).
  { split; [right; right; reflexivity|]. split; [left; reflexivity|]. split; [apply Forall_is_byte_b; reflexivity|]. split; [reflexivity|]. split; [cbn; lia|]. split; [unfold sizes_ok; cbn; lia|discriminate]. }
  destruct (C07_dequantize_set_f32 A 1 oaddr DT_UINT8 tenth 0 _ _ _ r HB ltac:(lia) HD) as (o & -> & _).
  destruct (returns_total o [0%Z] (quantize_call A' 1 oaddr' DT_F32 DT_UINT8 tenth 0 RM_STOCHASTIC f_zero o [0%Z])) as [r HQ].
  destruct (C15_stochastic_refuted A A' oaddr oaddr' (repeat 0%Z 4) o [0%Z] r eq_refl eq_refl ltac:(apply Forall_is_byte_b; reflexivity) HD HQ) as (p & -> & _ & E). eauto.
Qed.
