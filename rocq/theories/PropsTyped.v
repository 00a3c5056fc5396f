(** PropsTyped.v -- C41: the typed member templates; C42: equality of bfp16_t. *)
From Coq Require Import ZArith List Lia Bool Reals Lra.
From Flocq Require Import Core Binary Bits.
From Verif Require Import Base Floats Dtypes QuantKernels DequantKernels Context Spec ApiSpec FloatFacts FloatFacts2 Bf16Spec Bf16Facts Api
  PropsQuantize PropsDequantize PropsRoundTrip PropsDispatch PropsCapi Typed.
Import ListNotations.

(** Independent reading of the type parameters: the float types and the quantized types of the header. *)
Definition float_ctype (T : ctype) : Prop := T = T_float \/ T = T_bfp16.
Definition quant_ctype (T : ctype) : Prop := T = T_uint2 \/ T = T_uint4 \/ T = T_uint8.
(** Number of codes one object of the type holds: a uint4_t (uint2_t) object of a span is a whole byte with two (four) codes. *)
Definition codes_in (T : ctype) : nat := match T with T_uint2 => 4 | T_uint4 => 2 | _ => 1 end.
Definition spans_match (floats codes : nat) (Q : ctype) : Prop := codes = (floats + codes_in Q - 1) / codes_in Q.

Lemma float_code T : float_ctype T <-> float_type (type_code T).
Proof. unfold float_ctype, float_type. destruct T; cbn; intuition congruence. Qed.
Lemma quant_code_of T : quant_ctype T <-> quant_type (type_code T).
Proof. unfold quant_ctype, quant_type. destruct T; cbn; intuition congruence. Qed.
Lemma size_bytes_nat T n : size_bytes T n = Z.of_nat (n * stride (type_code T)).
Proof. unfold size_bytes. destruct T; cbn [sizeof stride type_code]; lia. Qed.
Lemma bytes_of_q T n : quant_ctype T -> bytes_for (type_code T) n = (n + codes_in T - 1) / codes_in T.
Proof.
  intros [->|[->| ->]]; unfold bytes_for; cbn [type_code bit_size codes_in].
  - replace (n * 2 + 7) with (1 + (n + 4 - 1) * 2) by lia. change 8 with (2 * 4). rewrite <- Nat.div_div by lia. rewrite Nat.div_add by lia. reflexivity.
  - replace (n * 4 + 7) with (3 + (n + 2 - 1) * 4) by lia. change 8 with (4 * 2). rewrite <- Nat.div_div by lia. rewrite Nat.div_add by lia. reflexivity.
  - rewrite Nat.div_1_r. replace (n * 8 + 7) with (7 + n * 8) by lia. rewrite Nat.div_add by lia. cbn. lia.
Qed.
Lemma numel_typed T n : numel (type_code T) (n * stride (type_code T)) = n.
Proof. unfold numel. apply Nat.div_mul. destruct T; discriminate. Qed.

Lemma spans_bytes T n k : quant_ctype T -> spans_match n k T <-> k * stride (type_code T) = bytes_for (type_code T) n.
Proof.
  intros H. unfold spans_match. rewrite bytes_of_q by auto. assert (E : stride (type_code T) = 1) by (destruct H as [->|[->| ->]]; reflexivity).
  rewrite E, Nat.mul_1_r. tauto.
Qed.

(** ** C41.  Every combination of element types compiles; at run time the call is accepted exactly when the types are of the right kinds and the span of
    codes has one object per packed byte, and it aborts (before touching anything) otherwise. *)
Theorem C41_quantize_generic A nt oaddr IN OUT in_count out_count scale zp rm thr :
  sizes_ok (in_count * stride (type_code IN)) in_count nt ->
  validated (float_ctype IN /\ quant_ctype OUT /\ spans_match in_count out_count OUT)
            (quantize_generic A nt oaddr IN OUT in_count out_count scale zp rm thr).
Proof.
  intros HS. unfold quantize_generic. rewrite !size_bytes_nat.
  pose proof (C25_quantize A nt oaddr (in_count * stride (type_code IN)) (type_code IN) (out_count * stride (type_code OUT)) (type_code OUT) scale zp rm thr) as V.
  rewrite numel_typed in V. specialize (V HS). destruct V as [V1 V2].
  assert (E : float_ctype IN /\ quant_ctype OUT /\ spans_match in_count out_count OUT <->
    quantize_args_ok (in_count * stride (type_code IN)) (type_code IN) (out_count * stride (type_code OUT)) (type_code OUT)).
  { unfold quantize_args_ok. rewrite numel_typed, <- float_code, <- quant_code_of. pose proof (spans_bytes OUT in_count out_count). tauto. }
  split; intros H; [apply V1|apply V2, E, H]. intros H'. apply H, E, H'.
Qed.
Theorem C41_dequantize_generic A nt oaddr IN OUT in_count out_count scale zp op :
  sizes_ok (out_count * stride (type_code OUT)) out_count nt ->
  validated (quant_ctype IN /\ float_ctype OUT /\ spans_match out_count in_count IN)
            (dequantize_generic A nt oaddr IN OUT in_count out_count scale zp op).
Proof.
  intros HS. unfold dequantize_generic. rewrite !size_bytes_nat.
  pose proof (C25_dequantize A nt oaddr (in_count * stride (type_code IN)) (type_code IN) (out_count * stride (type_code OUT)) (type_code OUT) scale zp op) as V.
  rewrite numel_typed in V. specialize (V HS). destruct V as [V1 V2].
  assert (E : quant_ctype IN /\ float_ctype OUT /\ spans_match out_count in_count IN <->
    dequantize_args_ok (in_count * stride (type_code IN)) (type_code IN) (out_count * stride (type_code OUT)) (type_code OUT)).
  { unfold dequantize_args_ok. rewrite numel_typed, <- float_code, <- quant_code_of. pose proof (spans_bytes IN out_count in_count). tauto. }
  split; intros H; [apply V1|apply V2, E, H]. intros H'. apply H, E, H'.
Qed.
Theorem C41_fused_generic A nt oaddr INOUT QUANT in_count out_count scale zp rm op thr :
  sizes_ok (in_count * stride (type_code INOUT)) in_count nt ->
  validated (float_ctype INOUT /\ quant_ctype QUANT /\ in_count = out_count)
            (quantize_dequantize_fused_generic A nt oaddr INOUT QUANT in_count out_count scale zp rm op thr).
Proof.
  intros HS. unfold quantize_dequantize_fused_generic. rewrite !size_bytes_nat.
  pose proof (C25_fused A nt oaddr (in_count * stride (type_code INOUT)) (type_code INOUT) (out_count * stride (type_code INOUT)) (type_code QUANT) scale zp rm op thr) as V.
  rewrite numel_typed in V. specialize (V HS). destruct V as [V1 V2].
  assert (E : float_ctype INOUT /\ quant_ctype QUANT /\ in_count = out_count <->
    fused_args_ok (in_count * stride (type_code INOUT)) (type_code INOUT) (out_count * stride (type_code INOUT)) (type_code QUANT)).
  { unfold fused_args_ok. rewrite <- float_code, <- quant_code_of. destruct INOUT; cbn [stride type_code]; split; intros (F & Q & L); repeat split; auto; lia. }
  split; intros H; [apply V1|apply V2, E, H]. intros H'. apply H, E, H'.
Qed.

(** A span with one uint4_t (uint2_t) per element -- what the element types of the template suggest -- is refused for every length above one. *)
Theorem C41_one_object_per_element_refuted A nt oaddr IN OUT n scale zp rm thr :
  OUT = T_uint4 \/ OUT = T_uint2 -> 2 <= n -> sizes_ok (n * stride (type_code IN)) n nt ->
  quantize_generic A nt oaddr IN OUT n n scale zp rm thr = Abort.
Proof.
  intros HO Hn HS. apply (proj1 (C41_quantize_generic A nt oaddr IN OUT n n scale zp rm thr HS)). unfold spans_match. intros (_ & _ & E).
  destruct HO as [->| ->]; cbn [codes_in] in E.
  - assert ((n + 2 - 1) / 2 < n) by (apply Nat.div_lt_upper_bound; lia). lia.
  - assert ((n + 4 - 1) / 4 < n) by (apply Nat.div_lt_upper_bound; lia). lia.
Qed.

(** The accepted call is the untyped call on the bytes of the spans, so the results of C01, C07, ... carry over. *)
Theorem C41_quantize_codes A nt oaddr IN OUT n scale zp thr inm outm r :
  float_ctype IN -> quant_ctype OUT -> Forall is_byte inm -> length inm = (n * stride (type_code IN))%nat -> spans_match n (length outm) OUT ->
  sizes_ok (length inm) n nt -> good_scale scale -> (Z.abs zp <= 2 ^ 22)%Z ->
  (forall i, i < n -> nearest_ok A scale (elem_at (type_code IN) inm i)) ->
  returns inm outm (quantize_generic A nt oaddr IN OUT n (length outm) scale zp RM_NEAREST thr) r ->
  exists o, r = Ok o /\ length o = length outm /\
    forall i, i < n -> code_at (type_code OUT) o i = quant_code (type_code OUT) (val scale) zp (val (elem_at (type_code IN) inm i)).
Proof.
  intros Hf Hq Hb Li Lo HS Hg Hz HI HR. unfold quantize_generic in HR. rewrite !size_bytes_nat in HR.
  rewrite spans_bytes in Lo by auto.
  assert (E1 : stride (type_code OUT) = 1) by (destruct Hq as [->|[->| ->]]; reflexivity). rewrite E1, Nat.mul_1_r in *. rewrite <- Li in HR.
  assert (EN : numel (type_code IN) (length inm) = n) by (rewrite Li; apply numel_typed).
  destruct (C01_quantize_nearest A nt oaddr (type_code IN) (type_code OUT) scale zp thr inm outm r) as (o & -> & L & C); auto.
  - repeat split; try apply HS; auto; try (apply float_code; auto); try (apply quant_code_of; auto); rewrite EN; auto; apply HS.
  - rewrite EN. auto.
  - exists o. split; auto. split; auto. intros i Hi. rewrite EN in C. rewrite C by auto. reflexivity.
Qed.
Theorem C41_dequantize_values A nt oaddr IN n scale zp inm outm r :
  quant_ctype IN -> Forall is_byte inm -> length outm = (n * 4)%nat -> forall in_count, spans_match n in_count IN -> (in_count < length inm)%nat ->
  sizes_ok (length outm) n nt -> (Z.abs zp <= 2 ^ 30)%Z ->
  returns inm outm (dequantize_generic A nt oaddr IN T_float in_count n scale zp RO_SET) r ->
  exists o, r = Ok o /\ length o = length outm /\
    forall i, i < n -> f32_at o i = fmul (f32_of_Z (code_at (type_code IN) inm i - zp)) scale.
Proof.
  intros Hq Hb Lo k Hk Hx HS Hz HR.
  assert (Hq' : quant_type (type_code IN)) by (apply quant_code_of; auto).
  apply (C27_dequantize_values A nt oaddr (type_code IN) n scale zp inm outm r); auto.
  - rewrite bytes_of_q by auto. rewrite <- Hk. lia.
  - rewrite bytes_of_q by auto. rewrite <- Hk. lia.
  - rewrite C27_dequantize; auto; try (left; reflexivity).
    + unfold dequantize_generic in HR. rewrite !size_bytes_nat in HR. rewrite bytes_of_q, <- Hk by auto.
      assert (E1 : stride (type_code IN) = 1) by (destruct Hq as [->|[->| ->]]; reflexivity). rewrite E1, Nat.mul_1_r in HR. exact HR.
    + destruct HS as (_ & _ & _ & HS). cbn [stride]. lia.
Qed.

(** ** C42.  bfp16_t::operator== compares bits.  It agrees with the comparison of the values (IEEE ==) except for the two zeros, which it tells apart,
    and for NaNs, where a NaN equals itself. *)
Definition ieee_equal (a b : Z) : Prop := Bcompare 24 128 (bf16_to_f32 a) (bf16_to_f32 b) = Some Eq.
Lemma ieee_equal_inv (x y : f32) : Bcompare 24 128 x y = Some Eq -> (x = y /\ ~ nan x) \/ (exists s t, x = B754_zero 24 128 s /\ y = B754_zero 24 128 t).
Proof.
  intros H. destruct (is_finite 24 128 x) eqn:Fx, (is_finite 24 128 y) eqn:Fy.
  - rewrite Bcompare_correct in H by auto. injection H as H. apply Rcompare_Eq_inv in H.
    destruct (Req_dec (B2R 24 128 x) 0) as [Z|Z].
    + right. destruct x as [s|s|s pl Hp|s m e B]; try discriminate; [|exfalso; revert Z; cbn [B2R]; intros Z; apply eq_0_F2R in Z; destruct s; discriminate].
      rewrite Z in H. destruct y as [t|t|t pl Hp|t m e B]; try discriminate; [|exfalso; revert H; cbn [B2R]; intros H; symmetry in H; apply eq_0_F2R in H; destruct t; discriminate].
      eauto.
    + left. split; [|unfold nan; destruct x; discriminate]. apply B2R_inj; auto; destruct x, y; try discriminate; try reflexivity; cbn [B2R] in *; congruence.
  - exfalso. destruct x, y; try discriminate; cbn in H; destruct s0; discriminate.
  - exfalso. destruct x, y; try discriminate; cbn in H; destruct s; discriminate.
  - left. destruct x as [s|s|s pl Hp|s m e B], y as [t|t|t pl' Hp'|t m' e' B']; try discriminate. split; [|discriminate]. destruct s, t; try discriminate; reflexivity.
Qed.
Lemma bf16_to_f32_inj a b : (0 <= a < 65536)%Z -> (0 <= b < 65536)%Z -> bf16_to_f32 a = bf16_to_f32 b -> ~ nan (bf16_to_f32 a) -> a = b.
Proof. intros Ha Hb E N. rewrite <- (C17_identity a), <- (C17_identity b); auto; congruence. Qed.
Theorem C42_equality a b : (0 <= a < 65536)%Z -> (0 <= b < 65536)%Z -> ~ nan (bf16_to_f32 a) ->
  ~ (val (bf16_to_f32 a) = 0 /\ val (bf16_to_f32 b) = 0 /\ finite (bf16_to_f32 a) /\ finite (bf16_to_f32 b))%R ->
  (bfp16_eqb a b = true <-> ieee_equal a b) /\ (bfp16_neqb a b = true <-> ~ ieee_equal a b).
Proof.
  intros Ha Hb N Z. assert (E : bfp16_eqb a b = true <-> ieee_equal a b).
  - unfold bfp16_eqb, ieee_equal. rewrite Z.eqb_eq. split.
    + intros ->. destruct (bf16_to_f32 b) as [s|s|s pl Hp|s m e B] eqn:Eb; cbn; try (destruct s; reflexivity).
      * exfalso. apply N. reflexivity.
      * destruct s; rewrite Z.compare_refl, Pos.compare_cont_refl; reflexivity.
    + intros H. destruct (ieee_equal_inv _ _ H) as [[E _]|(s & t & E1 & E2)]; [apply bf16_to_f32_inj; auto|].
      exfalso. apply Z. rewrite E1, E2. repeat split; reflexivity.
  - split; auto. unfold bfp16_neqb. rewrite negb_true_iff, <- E. destruct (bfp16_eqb a b); split; congruence.
Qed.
(** The two zeros are equal numbers, but bfp16_t tells them apart; a NaN is unequal to itself, but not for bfp16_t. *)
Theorem C42_zeros_refuted : exists a b, (0 <= a < 65536)%Z /\ (0 <= b < 65536)%Z /\ ieee_equal a b /\ bfp16_eqb a b = false /\
  val (bf16_to_f32 a) = 0%R /\ val (bf16_to_f32 b) = 0%R.
Proof. exists 0%Z, 32768%Z. repeat split; try reflexivity; lia. Qed.
Theorem C42_nan_refuted a : nan (bf16_to_f32 a) -> bfp16_eqb a a = true /\ ~ ieee_equal a a.
Proof.
  intros N. split; [apply Z.eqb_refl|]. unfold ieee_equal. unfold nan in N. destruct (bf16_to_f32 a); discriminate.
Qed.
(** Only the two zeros are equal numbers with different bits. *)
Theorem C42_only_zeros_differ a b : (0 <= a < 65536)%Z -> (0 <= b < 65536)%Z -> ieee_equal a b -> bfp16_eqb a b = false ->
  (a = 0 /\ b = 32768)%Z \/ (a = 32768 /\ b = 0)%Z.
Proof.
  intros Ha Hb H E. unfold bfp16_eqb in E. apply Z.eqb_neq in E. destruct (ieee_equal_inv _ _ H) as [[X N]|(s & t & E1 & E2)].
  - exfalso. apply E. apply bf16_to_f32_inj; auto.
  - assert (Z1 : forall c u, (0 <= c < 65536)%Z -> bf16_to_f32 c = B754_zero 24 128 u -> c = if u then 32768%Z else 0%Z).
    { intros c u Hc Ec. rewrite <- (C17_identity c) by (auto; rewrite Ec; discriminate). rewrite Ec. destruct u; reflexivity. }
    apply Z1 in E1; auto. apply Z1 in E2; auto. destruct s, t; subst; try congruence; lia.
Qed.
