(** PropsQuantize.v -- properties of quantize: C01, C02, C03 (results), C04, C12, C19, C29, C31. *)
From Coq Require Import ZArith List Lia Bool Arith ZifyBool ZifyNat Reals Lra.
From Flocq Require Import Core Binary Bits.
From Verif Require Import Base Floats Simd Dtypes Spec ApiSpec QuantKernels DequantKernels ExecFacts FloatFacts QuantFacts QuantKernelFacts
  QuantGenericFacts DequantFacts DequantGenericFacts QuantLanes Context ContextFacts Footprint QuantizeFacts DequantizeFacts Api.
Import ListNotations.

Ltac Zify.zify_post_hook ::= Z.div_mod_to_equations.

(** A valid quantize call with matching buffers: [inm] and [outm] are exactly the two spans. *)
Definition quantize_call (A : arch) (nt : nat) (oaddr : Z) (din dout : dtype) (scale : f32) (zp : Z) (rm : round_mode_t) (thr : f32)
    (inm outm : mem) : res (list (list action)) :=
  quantize A nt oaddr (Z.of_nat (length inm)) din (Z.of_nat (length outm)) dout scale zp rm thr.

Definition buffers_ok (nt : nat) (din dout : dtype) (inm outm : mem) : Prop :=
  float_type din /\ quant_type dout /\ Forall is_byte inm /\
  length outm = bytes_for dout (numel din (length inm)) /\ sizes_ok (length inm) (numel din (length inm)) nt.

(** inputs for which nearest rounding is exact on kernel set [A] *)
Definition nearest_ok (A : arch) (scale : f32) (x : f32) : Prop :=
  quantizable scale x /\ (x86_vector A -> Rabs (scaled (val scale) (val x)) <> pred_half).

Lemma has_vec_x86 A din dout rm : has_vec A din dout rm = true -> A <> NEON -> x86_vector A.
Proof. unfold x86_vector. destruct A, din, dout, rm; cbn; intros; try discriminate; try tauto; congruence. Qed.
Lemma has_vec_neon din dout rm : has_vec NEON din dout rm = true -> dout = DT_UINT8.
Proof. destruct din, dout, rm; cbn; intros; try discriminate; auto. Qed.

Lemma quant_code_range d s zp x : quant_type d -> (0 <= quant_code d s zp x <= code_max d)%Z.
Proof. intros H. pose proof (code_max_range d H). unfold quant_code, clamp. lia. Qed.
Lemma stoch_code_range d s zp t x : quant_type d -> (0 <= stoch_code d s zp t x <= code_max d)%Z.
Proof. intros H. pose proof (code_max_range d H). unfold stoch_code, clamp. lia. Qed.

(** The bytes a quantize call must leave in the output span. *)
Definition expected_code (rm : round_mode_t) (dout : dtype) (scale : f32) (zp : Z) (thr x : f32) : Z :=
  match rm with
  | RM_NEAREST => quant_code dout (val scale) zp (val x)
  | RM_STOCHASTIC => stoch_code dout (val scale) zp (val thr) (val x)
  end.
Definition input_ok (A : arch) (rm : round_mode_t) (scale : f32) (zp : Z) (thr x : f32) : Prop :=
  match rm with
  | RM_NEAREST => nearest_ok A scale x /\ (Z.abs zp <= 2 ^ 22)%Z
  | RM_STOCHASTIC => quantizable scale x /\ threshold thr /\ (Z.abs zp <= 2 ^ 62)%Z
  end.

Lemma expected_range rm d s zp t x : quant_type d -> (0 <= expected_code rm d s zp t x <= code_max d)%Z.
Proof. destruct rm; [apply quant_code_range|apply stoch_code_range]. Qed.

Lemma zero_nearest_ok A scale : nearest_ok A scale f_zero.
Proof.
  split; [apply quantizable_zero|]. intros _. destruct f_zero_ok as [_ ->]. rewrite scaled_0, Rabs_R0.
  intros H. assert (bpow radix2 (-25) < / 2)%R; [|unfold pred_half in H; lra].
  change (/ 2)%R with (bpow radix2 (-1)). apply bpow_lt. lia.
Qed.

Lemma byte_of_packed d n C k : quant_type d -> byte_of d (cut n C) k = packed_byte d n C k.
Proof.
  intros [->|[->| ->]]; unfold packed_byte, codes_per_byte; cbn [bit_size].
  - change (8 / 2)%nat with 4%nat. cbn [seq map fold_right byte_of]. unfold cut.
    change (2 ^ Z.of_nat (2 * 0))%Z with 1%Z. change (2 ^ Z.of_nat (2 * 1))%Z with 4%Z.
    change (2 ^ Z.of_nat (2 * 2))%Z with 16%Z. change (2 ^ Z.of_nat (2 * 3))%Z with 64%Z.
    rewrite Nat.add_0_r. ring.
  - change (8 / 4)%nat with 2%nat. cbn [seq map fold_right byte_of]. unfold cut.
    change (2 ^ Z.of_nat (4 * 0))%Z with 1%Z. change (2 ^ Z.of_nat (4 * 1))%Z with 16%Z. rewrite Nat.add_0_r. ring.
  - change (8 / 8)%nat with 1%nat. cbn [seq map fold_right byte_of]. unfold cut.
    change (2 ^ Z.of_nat (8 * 0))%Z with 1%Z. replace (1 * k + 0)%nat with k by lia. ring.
Qed.

(** Main theorem: whatever the kernel set, thread count, output address and interleaving, a valid call succeeds and the
    output bytes are the packed expected codes, zero padded.  The two allocations may be larger than the spans; bytes
    after the output span keep their value. *)
Theorem quantize_bytes A nt oaddr din dout scale zp rm thr inm outm in_size out_size r :
  float_type din -> quant_type dout -> Forall is_byte inm -> in_size <= length inm -> out_size <= length outm ->
  out_size = bytes_for dout (numel din in_size) -> sizes_ok in_size (numel din in_size) nt -> good_scale scale ->
  (rm = RM_STOCHASTIC -> threshold thr /\ (Z.abs zp <= 2 ^ 62)%Z) -> (rm = RM_NEAREST -> (Z.abs zp <= 2 ^ 22)%Z) ->
  (forall i, i < numel din in_size -> input_ok A rm scale zp thr (elem_at din inm i)) ->
  returns inm outm (quantize A nt oaddr (Z.of_nat in_size) din (Z.of_nat out_size) dout scale zp rm thr) r ->
  r = Ok (map (packed_byte dout (numel din in_size) (fun i => expected_code rm dout scale zp thr (elem_at din inm i))) (seq 0 out_size)
          ++ skipn out_size outm).
Proof.
  intros Hfp Hq Hb Hi Ho Heq HS Hsc Hst Hne HI HR.
  assert (G : forall x, input_ok A rm scale zp thr x ->
     q_scalar din dout rm (thr_of rm thr) (fdiv f_one scale) zp x = Ok (expected_code rm dout scale zp thr x)).
  { intros x Hx. destruct rm; cbn [thr_of expected_code input_ok] in *.
    - apply q_scalar_nearest_ok; try tauto. apply Hx.
    - apply q_scalar_stoch_ok; tauto. }
  apply quantize_core with (C := fun i => expected_code rm dout scale zp thr (elem_at din inm i)) in HR; auto.
  - rewrite HR. do 2 f_equal. apply map_ext. intros k. apply byte_of_packed; auto.
  - eexists. apply G. destruct rm; cbn [input_ok]; [split; auto; apply zero_nearest_ok|].
    destruct (Hst eq_refl). split; auto. apply quantizable_zero.
  - intros HV i Hii. specialize (HI i Hii). destruct rm; [|destruct din, dout; cbn in HV; try discriminate; destruct A; discriminate].
    cbn [input_ok expected_code] in *. destruct HI as [[Hqz Hx] Hz].
    apply lane_ok; auto.
    + intros ->. eapply has_vec_neon; eauto.
    + intros HA. apply Hx. eapply has_vec_x86; eauto.
Qed.

(** ** C01 *)
Theorem C01_quantize_nearest A nt oaddr din dout scale zp thr inm outm r :
  buffers_ok nt din dout inm outm -> good_scale scale -> (Z.abs zp <= 2 ^ 22)%Z ->
  (forall i, i < numel din (length inm) -> nearest_ok A scale (elem_at din inm i)) ->
  returns inm outm (quantize_call A nt oaddr din dout scale zp RM_NEAREST thr inm outm) r ->
  exists o, r = Ok o /\ length o = length outm /\
    forall i, i < numel din (length inm) ->
      code_at dout o i = clamp 0 (2 ^ Z.of_nat (bit_size dout) - 1)
                               (round_half_away (RN32 (val (elem_at din inm i) * RN32 (1 / val scale))) + zp).
Proof.
  intros (Hfp & Hq & Hb & Hl & HS) Hsc Hz HI HR. unfold quantize_call in HR.
  apply quantize_bytes in HR; auto; try discriminate; [|intros i Hi; split; auto].
  eexists. split; [exact HR|]. rewrite skipn_all, app_nil_r. split; [rewrite map_length, seq_length; auto|].
  intros i Hi. 
  rewrite (map_ext _ (byte_of dout (cut (numel din (length inm)) (fun i => expected_code RM_NEAREST dout scale zp thr (elem_at din inm i))))) by (intros; symmetry; apply byte_of_packed; auto).
  rewrite Hl. rewrite <- (app_nil_r (map _ _)). rewrite code_at_byte_of; auto.
  - rewrite cut_lt by auto. reflexivity.
  - intros; apply expected_range; auto.
  - rewrite bytes_for_per_byte by auto. destruct Hq as [->|[->| ->]]; cbn [per_byte]; lia.
Qed.

(** ** C29: stochastic rounding *)
Theorem C29_quantize_stochastic A nt oaddr din dout scale zp thr inm outm r :
  buffers_ok nt din dout inm outm -> good_scale scale -> (Z.abs zp <= 2 ^ 62)%Z -> threshold thr ->
  (forall i, i < numel din (length inm) -> quantizable scale (elem_at din inm i)) ->
  returns inm outm (quantize_call A nt oaddr din dout scale zp RM_STOCHASTIC thr inm outm) r ->
  exists o, r = Ok o /\ length o = length outm /\
    forall i, i < numel din (length inm) ->
      code_at dout o i = stoch_code dout (val scale) zp (val thr) (val (elem_at din inm i)).
Proof.
  intros (Hfp & Hq & Hb & Hl & HS) Hsc Hz Ht HI HR. unfold quantize_call in HR.
  apply quantize_bytes in HR; auto; try discriminate; [|intros i Hi; split; auto].
  eexists. split; [exact HR|]. rewrite skipn_all, app_nil_r. split; [rewrite map_length, seq_length; auto|].
  intros i Hi. 
  rewrite (map_ext _ (byte_of dout (cut (numel din (length inm)) (fun i => expected_code RM_STOCHASTIC dout scale zp thr (elem_at din inm i))))) by (intros; symmetry; apply byte_of_packed; auto).
  rewrite Hl. rewrite <- (app_nil_r (map _ _)). rewrite code_at_byte_of; auto.
  - rewrite cut_lt by auto. reflexivity.
  - intros; apply expected_range; auto.
  - rewrite bytes_for_per_byte by auto. destruct Hq as [->|[->| ->]]; cbn [per_byte]; lia.
Qed.
