(** Witnesses37.v -- concrete instances of the theorems of PropsUnitsBf16.v (C62, bf16 output). *)
From Coq Require Import ZArith List Lia Bool Arith ZifyBool ZifyNat Reals Lra.
From Flocq Require Import Core Binary Bits.
From Verif Require Import Base Floats Simd Dtypes Spec ApiSpec QuantKernels DequantKernels Context ContextFacts Api FloatFacts FloatFacts2 PropsQuantize PropsMemory PropsDequantize PropsRoundTrip RoundTripFacts PropsIdempotent PropsDequantBf16
  PropsUnits PropsUnitsBf16 Witnesses Witnesses30.
Import ListNotations.
Open Scope nat_scope.

Definition mirrored (dq : dtype) : mem := map (fun b => 255 - b)%Z (packed dq).
Lemma mirrored_at dq i : quant_type dq -> i < 70 -> code_at dq (mirrored dq) i = (code_max dq - code_at dq (packed dq) i)%Z.
Proof.
  intros Hq Hi.
  assert (H : forallb (fun i => (code_at dq (mirrored dq) i =? code_max dq - code_at dq (packed dq) i)%Z) (seq 0 70) = true)
    by (destruct Hq as [->|[->| ->]]; vm_compute; reflexivity).
  rewrite forallb_forall in H. apply Z.eqb_eq, H, in_seq. lia.
Qed.
Lemma mirrored_dq nt dq : quant_type dq -> few nt -> dq_buffers nt dq DT_BF16 (mirrored dq) (bytes_for dq 70) (sample DT_BF16).
Proof.
  intros Hq Hn. destruct (sample_dq nt dq DT_BF16 (or_intror eq_refl) Hq Hn) as (X1 & X2 & X3 & X4 & X5 & X6 & X7).
  assert (L : length (mirrored dq) = length (packed dq)) by (unfold mirrored; apply map_length).
  unfold dq_buffers. split; auto. split; auto. split.
  - unfold mirrored. apply (proj2 (Forall_map _ _ _)). rewrite Forall_forall in *. intros b Hb. specialize (X3 b Hb). unfold is_byte in *. lia.
  - split; auto. split; [rewrite L; auto|]. split; auto. rewrite L. auto.
Qed.
(** every value is doubled with the scale, and negated with the mirrored codes *)
Example C62_bf16_units_witness A A' nt nt' oaddr oaddr' dq r r' : quant_type dq -> few nt -> few nt' -> rounds_each A dq -> rounds_each A' dq ->
  returns (packed dq) (sample DT_BF16) (dequantize_call A nt oaddr dq DT_BF16 f_half 2 RO_SET (bytes_for dq 70) (sample DT_BF16)) r ->
  returns (packed dq) (sample DT_BF16) (dequantize_call A' nt' oaddr' dq DT_BF16 f_one 2 RO_SET (bytes_for dq 70) (sample DT_BF16)) r' ->
  exists o o', r = Ok o /\ r' = Ok o' /\ forall i, i < 70 -> val (bf16_value o' i) = (2 * val (bf16_value o i))%R.
Proof.
  intros Hq Hn Hn' HA HA' HD HD'. destruct (sample_len DT_BF16 (or_intror eq_refl)) as [_ L]. destruct half_ok as [_ V], f_one_ok as [_ V1].
  destruct (C62_units_decoded_bf16 A A' nt nt' oaddr oaddr' dq f_half f_one 2 1 (packed dq) (packed dq) (bytes_for dq 70) (bytes_for dq 70) (sample DT_BF16) (sample DT_BF16) r r' HA HA') as (o & o' & E & E' & X); auto.
  - apply sample_dq; auto. right; reflexivity.
  - apply sample_dq; auto. right; reflexivity.
  - apply sample_bytes.
  - apply sample_bytes.
  - apply half_normal.
  - apply one_normal.
  - rewrite V, V1. cbn. lra.
  - lia.
  - exists o, o'. split; auto. split; auto. rewrite L in X. intros i Hi. destruct (X i Hi) as (_ & _ & ->). change (bpow radix2 1) with 2%R. ring.
Qed.
Example C62_bf16_negation_witness A A' nt nt' oaddr oaddr' dq r r' : quant_type dq -> few nt -> few nt' -> rounds_each A dq -> rounds_each A' dq ->
  returns (packed dq) (sample DT_BF16) (dequantize_call A nt oaddr dq DT_BF16 f_half 2 RO_SET (bytes_for dq 70) (sample DT_BF16)) r ->
  returns (mirrored dq) (sample DT_BF16) (dequantize_call A' nt' oaddr' dq DT_BF16 f_half (code_max dq - 2) RO_SET (bytes_for dq 70) (sample DT_BF16)) r' ->
  exists o o', r = Ok o /\ r' = Ok o' /\ forall i, i < 70 -> val (bf16_value o' i) = (- val (bf16_value o i))%R.
Proof.
  intros Hq Hn Hn' HA HA' HD HD'. destruct (sample_len DT_BF16 (or_intror eq_refl)) as [_ L].
  destruct (C62_negation_decoded_bf16 A A' nt nt' oaddr oaddr' dq f_half 2 (packed dq) (mirrored dq) (bytes_for dq 70) (bytes_for dq 70) (sample DT_BF16) (sample DT_BF16) r r' HA HA') as (o & o' & E & E' & X); auto.
  - apply sample_dq; auto. right; reflexivity.
  - apply mirrored_dq; auto.
  - apply sample_bytes.
  - apply sample_bytes.
  - apply half_normal.
  - lia.
  - rewrite L. intros i Hi. apply mirrored_at; auto.
  - exists o, o'. split; auto. split; auto. rewrite L in X. intros i Hi. apply (X i Hi).
Qed.
(** the AVX-512 counterexample: both calls return, for every address *)
Example C62_bf16_avx512_refuted_exists A oaddr oaddr' : avx512 A = true -> exists r r',
  returns PropsBf16Zero.threes (repeat 0%Z 256) (dequantize_call A 1 oaddr DT_UINT4 DT_BF16 PropsBf16Zero.tenth 3 RO_SET 64 (repeat 0%Z 256)) r /\
  returns twelves (repeat 0%Z 256) (dequantize_call A 1 oaddr' DT_UINT4 DT_BF16 PropsBf16Zero.tenth 12 RO_SET 64 (repeat 0%Z 256)) r' /\
  exists o o', r = Ok o /\ r' = Ok o' /\ val (bf16_value o 5) = (- bpow radix2 (-27))%R /\ val (bf16_value o' 5) = (- bpow radix2 (-25))%R.
Proof.
  intros HA. edestruct returns_total as [r Hr]. edestruct returns_total as [r' Hr']. exists r, r'. split; [exact Hr|]. split; [exact Hr'|].
  destruct (C62_bf16_avx512_refuted A oaddr oaddr' (repeat 0%Z 256) r r' HA (repeat_length _ _)) as (o & o' & E & E' & X); auto.
  - apply PropsBf16Zero.repeat_bytes. unfold is_byte. lia.
  - exists o, o'. split; auto. split; auto. apply (X 5). lia.
Qed.
