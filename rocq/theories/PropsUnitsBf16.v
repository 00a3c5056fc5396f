(** PropsUnitsBf16.v -- C62 for bf16 output: the decoded bf16 values are scaled by 2^k, or negated, together with the data. *)
From Coq Require Import ZArith List Lia Bool Arith ZifyBool ZifyNat Reals Lra.
From Flocq Require Import Core Binary Bits.
From Verif Require Import Base Floats Simd Dtypes Spec ApiSpec QuantKernels DequantKernels FloatFacts QuantFacts QuantLanes Context ContextFacts Api PropsQuantize
  PropsMemory FloatFacts2 PropsDequantize PropsRoundTrip RoundTripFacts PropsIdempotent Bf16Spec Bf16Facts PropsDequantBf16 MinMax ConfigSpec F64Facts ConfigFacts PropsConfig PropsRepresent PropsOrder PropsBf16Zero PropsUnits.
Import ListNotations.
Open Scope R_scope.

(** CPUs and code types for which dequantizing to bf16 rounds the f32 product code by code (the AVX-512 kernels compute uint4 and uint2 otherwise) *)
Definition rounds_each (A : arch) (d : dtype) : Prop := avx512 A = false \/ (d = DT_UINT8 /\ A <> AVX512BF16).
(** the number stored in element [i] of a bf16 tensor *)
Definition bf16_value (m : mem) (i : nat) : f32 := elem_at DT_BF16 m i.

Lemma RN16_scale k x : x = 0 \/ (bpow radix2 (-126) <= Rabs x /\ bpow radix2 (-126) <= Rabs (x * bpow radix2 k)) -> RN16 (x * bpow radix2 k) = RN16 x * bpow radix2 k.
Proof.
  intros [->|[H1 H2]]; [rewrite !Rmult_0_l, RN16_0; ring|].
  assert (N : x <> 0) by (intros ->; rewrite Rabs_R0 in H1; pose proof (bpow_gt_0 radix2 (-126)); lra).
  assert (M : forall y, bpow radix2 (-126) <= Rabs y -> y <> 0 -> FLT_exp (-133) 8 (mag radix2 y) = (mag radix2 y - 8)%Z).
  { intros y Hy Ny. unfold FLT_exp. assert (-126 < mag radix2 y)%Z by (apply mag_gt_bpow; auto). lia. }
  assert (N2 : x * bpow radix2 k <> 0) by (apply Rmult_integral_contrapositive_currified; auto; apply Rgt_not_eq, bpow_gt_0).
  unfold RN16, round, scaled_mantissa, cexp. rewrite !M by auto. rewrite mag_mult_bpow by auto.
  replace (x * bpow radix2 k * bpow radix2 (- (mag radix2 x + k - 8))) with (x * bpow radix2 (- (mag radix2 x - 8))).
  - unfold F2R. cbn [Fnum Fexp]. rewrite Rmult_assoc, <- bpow_plus. do 2 f_equal. lia.
  - rewrite Rmult_assoc, <- bpow_plus. do 2 f_equal. lia.
Qed.
Lemma RN32_abs x : RN32 (Rabs x) = Rabs (RN32 x).
Proof. unfold RN32. apply round_NE_abs. typeclasses eauto. Qed.
Lemma RN32_lower x : bpow radix2 (-126) <= Rabs x -> bpow radix2 (-126) <= Rabs (RN32 x).
Proof. intros H. rewrite <- RN32_abs. apply round_ge_generic; [typeclasses eauto|typeclasses eauto| |exact H]. apply generic_format_bpow. cbn. lia. Qed.
Lemma RN32_upper x e : (-126 <= e)%Z -> Rabs x <= bpow radix2 e -> Rabs (RN32 x) <= bpow radix2 e.
Proof. intros He H. rewrite <- RN32_abs. apply round_le_generic; [typeclasses eauto|typeclasses eauto| |exact H]. apply generic_format_bpow. unfold FLT_exp. lia. Qed.

(** one stored element *)
Lemma bf16_stored A nt oaddr d scale zp inm in_size outm r : rounds_each A d -> dq_buffers nt d DT_BF16 inm in_size outm -> normal_scale scale -> (Z.abs zp <= 2 ^ 19)%Z ->
  Forall is_byte outm -> returns inm outm (dequantize_call A nt oaddr d DT_BF16 scale zp RO_SET in_size outm) r ->
  exists o, r = Ok o /\ forall i, (i < numel DT_BF16 (length outm))%nat ->
    finite (bf16_value o i) /\ val (bf16_value o i) = RN16 (RN32 (IZR (code_at d inm i - zp) * val scale)).
Proof.
  intros HR HB N Hz Hob HD. pose proof HB as (Hq & _). pose proof (code_max_range d Hq) as Hm.
  assert (Hz22 : (Z.abs zp <= 2 ^ 22)%Z) by lia.
  destruct (C07_dequantize_set_bf16 _ _ _ _ _ _ _ _ _ _ HB Hz22 Hob HD) as (o & -> & _ & _ & E1 & E2 & _).
  exists o. split; auto. intros i Hi. set (q := code_at d inm i).
  assert (Hc : (0 <= q <= code_max d)%Z) by (apply code_at_le; auto). assert (Hk : (Z.abs (q - zp) <= 2 ^ 20)%Z) by lia.
  assert (EQ : bf16_at o i = bf16_of_f32 (dequant_value scale zp q)).
  { destruct HR as [Ha|[Hd Ha]]; [apply E1; auto|apply E2; auto; apply N]. }
  destruct (dequant_value_ok scale zp q N Hk) as [F V].
  unfold bf16_value. cbn [elem_at]. change (f32_of_bits (bf16_at o i * 65536)) with (bf16_to_f32 (bf16_at o i)). rewrite EQ.
  pose proof (C17_round_to_nearest_even _ F) as X. cbv zeta in X. destruct X as (_ & _ & X). rewrite V in X.
  assert (L : Rabs (RN16 (RN32 (IZR (q - zp) * val scale))) <= bpow radix2 120).
  { unfold RN16. rewrite <- (round_NE_abs radix2 (FLT_exp (-133) 8)). apply round_le_generic; [typeclasses eauto|typeclasses eauto|apply generic_format_bpow; unfold FLT_exp; lia|].
    apply RN32_upper; [lia|]. rewrite Rabs_mult. change 120%Z with (20 + 100)%Z. rewrite bpow_plus. apply Rmult_le_compat; try apply Rabs_pos; [|apply N].
    change (bpow radix2 20) with (IZR (2 ^ 20)). apply abs_IZR_le. exact Hk. }
  rewrite Rlt_bool_true in X; [exact X|]. apply Rle_lt_trans with (1 := L). apply bpow_lt. lia.
Qed.

Theorem C62_units_decoded_bf16 A A' nt nt' oaddr oaddr' d scale scale' zp k inm inm' in_size in_size' outm outm' r r' :
  let n := numel DT_BF16 (length outm) in
  rounds_each A d -> rounds_each A' d ->
  dq_buffers nt d DT_BF16 inm in_size outm -> dq_buffers nt' d DT_BF16 inm' in_size' outm' -> numel DT_BF16 (length outm') = n -> Forall is_byte outm -> Forall is_byte outm' ->
  normal_scale scale -> normal_scale scale' -> val scale' = val scale * bpow radix2 k -> (Z.abs zp <= 2 ^ 19)%Z ->
  (forall i, (i < n)%nat -> code_at d inm' i = code_at d inm i) ->
  returns inm outm (dequantize_call A nt oaddr d DT_BF16 scale zp RO_SET in_size outm) r ->
  returns inm' outm' (dequantize_call A' nt' oaddr' d DT_BF16 scale' zp RO_SET in_size' outm') r' ->
  exists o o', r = Ok o /\ r' = Ok o' /\ forall i, (i < n)%nat ->
    finite (bf16_value o i) /\ finite (bf16_value o' i) /\ val (bf16_value o' i) = val (bf16_value o i) * bpow radix2 k.
Proof.
  intros n HR HR' HB HB' Hn Hob Hob' N N' V Hz HC HD HD'.
  destruct (bf16_stored _ _ _ _ _ _ _ _ _ _ HR HB N Hz Hob HD) as (o & -> & X).
  destruct (bf16_stored _ _ _ _ _ _ _ _ _ _ HR' HB' N' Hz Hob' HD') as (o' & -> & X'). rewrite Hn in X'. fold n in X.
  exists o, o'. split; auto. split; auto. intros i Hi. destruct (X i Hi) as [F E]. destruct (X' i Hi) as [F' E']. split; auto. split; auto.
  rewrite E, E', HC, V by auto. set (q := code_at d inm i). rewrite <- Rmult_assoc. set (x := IZR (q - zp) * val scale).
  assert (G : x = 0 \/ (bpow radix2 (-126) <= Rabs x /\ bpow radix2 (-126) <= Rabs (x * bpow radix2 k))).
  { unfold x. destruct (Z.eq_dec (q - zp) 0) as [->|NZ]; [left; ring|right].
    destruct N as (_ & L & _), N' as (_ & L' & _). rewrite V in L'. assert (1 <= Rabs (IZR (q - zp))) by (rewrite <- abs_IZR; apply IZR_le; lia).
    rewrite (Rmult_assoc _ (val scale)). rewrite !(Rabs_mult (IZR (q - zp))). pose proof (bpow_gt_0 radix2 (-126)). split; nra. }
  rewrite RN32_scale by exact G. apply RN16_scale. destruct G as [->|[G1 G2]]; [left; apply RN32_0|right]. split; [apply RN32_lower; auto|].
  rewrite <- RN32_scale by (right; auto). apply RN32_lower. exact G2.
Qed.

Theorem C62_negation_decoded_bf16 A A' nt nt' oaddr oaddr' d scale zp inm inm' in_size in_size' outm outm' r r' :
  let n := numel DT_BF16 (length outm) in
  rounds_each A d -> rounds_each A' d ->
  dq_buffers nt d DT_BF16 inm in_size outm -> dq_buffers nt' d DT_BF16 inm' in_size' outm' -> numel DT_BF16 (length outm') = n -> Forall is_byte outm -> Forall is_byte outm' ->
  normal_scale scale -> (Z.abs zp <= 2 ^ 18)%Z ->
  (forall i, (i < n)%nat -> code_at d inm' i = (code_max d - code_at d inm i)%Z) ->
  returns inm outm (dequantize_call A nt oaddr d DT_BF16 scale zp RO_SET in_size outm) r ->
  returns inm' outm' (dequantize_call A' nt' oaddr' d DT_BF16 scale (code_max d - zp) RO_SET in_size' outm') r' ->
  exists o o', r = Ok o /\ r' = Ok o' /\ forall i, (i < n)%nat ->
    finite (bf16_value o i) /\ finite (bf16_value o' i) /\ val (bf16_value o' i) = - val (bf16_value o i).
Proof.
  intros n HR HR' HB HB' Hn Hob Hob' N Hz HC HD HD'. pose proof HB as (Hq & _). pose proof (code_max_range d Hq) as Hm.
  assert (Hz1 : (Z.abs zp <= 2 ^ 19)%Z) by lia. assert (Hz2 : (Z.abs (code_max d - zp) <= 2 ^ 19)%Z) by lia.
  destruct (bf16_stored _ _ _ _ _ _ _ _ _ _ HR HB N Hz1 Hob HD) as (o & -> & X).
  destruct (bf16_stored _ _ _ _ _ _ _ _ _ _ HR' HB' N Hz2 Hob' HD') as (o' & -> & X'). rewrite Hn in X'. fold n in X.
  exists o, o'. split; auto. split; auto. intros i Hi. destruct (X i Hi) as [F E]. destruct (X' i Hi) as [F' E']. split; auto. split; auto.
  rewrite E, E', HC by auto. rewrite <- RN16_opp, <- RN32_opp. do 2 f_equal. rewrite !minus_IZR. ring.
Qed.

(** With the AVX-512 kernels uint4 is different: 128 codes 3 with zero point 3 and scale 0.1f, and the mirrored message (128 codes 12, zero
    point 12), both decode to small negative numbers. *)
Definition twelves : mem := repeat 0xcc%Z 64.
Theorem C62_bf16_avx512_refuted A oaddr oaddr' outm r r' : avx512 A = true -> length outm = 256%nat -> Forall is_byte outm ->
  returns PropsBf16Zero.threes outm (dequantize_call A 1 oaddr DT_UINT4 DT_BF16 tenth 3 RO_SET 64 outm) r ->
  returns twelves outm (dequantize_call A 1 oaddr' DT_UINT4 DT_BF16 tenth (code_max DT_UINT4 - 3) RO_SET 64 outm) r' ->
  exists o o', r = Ok o /\ r' = Ok o' /\ forall i, (i < 128)%nat ->
    code_at DT_UINT4 twelves i = (code_max DT_UINT4 - code_at DT_UINT4 PropsBf16Zero.threes i)%Z /\
    val (bf16_value o i) = - bpow radix2 (-27) /\ val (bf16_value o' i) = - bpow radix2 (-25).
Proof.
  intros HA HL Hob HR HR'. destruct (C13_bf16_avx512_refuted A oaddr outm r HA HL Hob HR) as (o & -> & Ho). change (code_max DT_UINT4 - 3)%Z with 12%Z in HR'.
  assert (HB : dq_buffers 1 DT_UINT4 DT_BF16 twelves 64 outm).
  { unfold dq_buffers. rewrite HL. change (numel DT_BF16 256) with 128%nat. repeat split; try (right; left; reflexivity); try (left; reflexivity);
      try (right; reflexivity); try (unfold sizes_ok; lia); try discriminate; try (cbn; lia); try reflexivity. apply repeat_bytes. unfold is_byte. lia. }
  assert (Hz : (Z.abs 12 <= 2 ^ 22)%Z) by lia.
  destruct (dequantize_bf16 _ _ _ _ _ _ _ _ _ _ _ HB Hz Hob HR') as (o' & -> & _ & _ & HE & _). exists o, o'. split; auto. split; auto.
  rewrite HL in HE. change (numel DT_BF16 256) with 128%nat in HE. intros i Hi. destruct (Ho i Hi) as [C3 V3].
  assert (C : code_at DT_UINT4 twelves i = 12%Z).
  { assert (H : forallb (fun i => (code_at DT_UINT4 twelves i =? 12)%Z) (seq 0 128) = true) by (vm_compute; reflexivity).
    rewrite forallb_forall in H. apply Z.eqb_eq, H, in_seq. lia. }
  split; [rewrite C3, C; reflexivity|].
  assert (V : bf16_vector_path A DT_UINT4 128 1 i = true).
  { unfold bf16_vector_path. rewrite HA. cbn [andb].
    assert (H : forallb (fun i => existsb (fun t => let lo := part_bound (codes_per_byte DT_UINT4) 128 1 t in let hi := part_bound (codes_per_byte DT_UINT4) 128 1 (S t) in
      (lo <=? i) && (i <? hi) && (i - lo <? bf16_block DT_UINT4 * ((hi - lo) / bf16_block DT_UINT4)))%nat (seq 0 1)) (seq 0 128) = true) by (vm_compute; reflexivity).
    rewrite forallb_forall in H. apply H, in_seq. lia. }
  assert (V12 : bf16_at o' i = 0xb300%Z) by (rewrite HE, C by auto; rewrite V; destruct A; try discriminate; vm_compute; reflexivity).
  unfold bf16_value. cbn [elem_at]. rewrite V3, V12. split.
  - change (f32_of_bits (45568 * 65536)) with (f32_of_bits 2986344448). unfold val. cbn. unfold F2R. cbn. lra.
  - change (f32_of_bits (45824 * 65536)) with (f32_of_bits 3003121664). unfold val. cbn. unfold F2R. cbn. lra.
Qed.
