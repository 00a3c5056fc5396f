(** PropsCapi.v -- C26 (the C API on unsuitable arguments) and C27 (it computes what the C++ API computes). *)
From Coq Require Import ZArith List Lia Bool Arith ZifyBool ZifyNat Reals.
From Flocq Require Import Core Binary Bits.
From Verif Require Import Base Floats Simd Dtypes Spec ApiSpec QuantKernels DequantKernels ExecFacts FloatFacts Context ContextFacts Api QuantizeFacts PropsQuantize PropsDequantize
  PropsDispatch MinMax Capi.
Import ListNotations.
Local Open Scope Z_scope.
Ltac Zify.zify_post_hook ::= Z.div_mod_to_equations.

(** include/piquant.h:24-41: the enumerators of the C header *)
Definition PIQUANT_DTYPE (d : dtype) : Z := match d with DT_F32 => 0 | DT_BF16 => 1 | DT_UINT2 => 2 | DT_UINT4 => 3 | DT_UINT8 => 4 end.
Definition PIQUANT_MODE (m : round_mode_t) : Z := match m with RM_NEAREST => 0 | RM_STOCHASTIC => 1 end.
Definition PIQUANT_REDUCE_OP (o : reduce_op) : Z := match o with RO_SET => 0 | RO_ADD => 1 end.
Definition valid_dtype (v : Z) : Prop := 0 <= v <= 4.

Lemma enum_dtype d : dtype_of_enum (PIQUANT_DTYPE d) = Ok d.
Proof. destruct d; reflexivity. Qed.
Lemma enum_mode m : round_mode_of_enum (PIQUANT_MODE m) = Some m.
Proof. destruct m; reflexivity. Qed.
Lemma enum_op o : reduce_op_of_enum (PIQUANT_REDUCE_OP o) = Some o.
Proof. destruct o; reflexivity. Qed.
Lemma enum_invalid v : ~ valid_dtype v -> dtype_of_enum v = UB.
Proof. unfold valid_dtype, dtype_of_enum. intros H.
  destruct (Z.eqb_spec v 0), (Z.eqb_spec v 1), (Z.eqb_spec v 2), (Z.eqb_spec v 3), (Z.eqb_spec v 4); try lia; reflexivity. Qed.
Lemma enum_valid v : valid_dtype v -> exists d, v = PIQUANT_DTYPE d.
Proof.
  unfold valid_dtype. intros H. assert (E : v = 0 \/ v = 1 \/ v = 2 \/ v = 3 \/ v = 4) by lia.
  destruct E as [->|[->|[->|[->| ->]]]]; [exists DT_F32|exists DT_BF16|exists DT_UINT2|exists DT_UINT4|exists DT_UINT8]; reflexivity.
Qed.

Lemma packed_bytes_ok n d : quant_type d -> 0 <= n -> n + 7 < 2 ^ 64 -> packed_bytes n d = Ok ((n * Z.of_nat (bit_size d) + 7) / 8).
Proof.
  intros [->|[->| ->]] H0 H; unfold packed_bytes, packed_numel; cbn [bit_size stride Nat.eqb bind]; change (8 / Z.of_nat 2) with 4; change (8 / Z.of_nat 4) with 2;
    cbn [Z.eqb Pos.eqb bind]; f_equal; unfold wrap_u64; repeat rewrite Z.mod_small by lia; lia.
Qed.
Lemma packed_bytes_wrap n d : quant_type d -> 0 <= n < 2 ^ 64 -> n + 7 >= 2 ^ 64 -> packed_bytes n d = Ok (if Nat.eqb (bit_size d) 8 then n else if n + (8 / Z.of_nat (bit_size d) - 1) <? 2 ^ 64 then (n * Z.of_nat (bit_size d) + 7) / 8 else 0).
Proof.
  intros [->|[->| ->]] H0 H; unfold packed_bytes, packed_numel; cbn [bit_size stride Nat.eqb bind]; change (8 / Z.of_nat 2) with 4; change (8 / Z.of_nat 4) with 2;
    cbn [Z.eqb Pos.eqb bind]; f_equal; try (unfold wrap_u64; rewrite Z.mod_small by lia; lia).
  - destruct (Z.ltb_spec (n + (4 - 1)) (2 ^ 64)).
    + unfold wrap_u64; repeat rewrite Z.mod_small by lia; lia.
    + unfold wrap_u64. change 18446744073709551616 with (2 ^ 64). replace ((n + 4 - 1) mod 2 ^ 64) with (n + 4 - 1 - 2 ^ 64) by (apply Z.mod_unique with 1; lia).
      rewrite Z.div_small by lia. reflexivity.
  - destruct (Z.ltb_spec (n + (2 - 1)) (2 ^ 64)).
    + unfold wrap_u64; repeat rewrite Z.mod_small by lia; lia.
    + unfold wrap_u64. change 18446744073709551616 with (2 ^ 64). replace ((n + 2 - 1) mod 2 ^ 64) with (n + 2 - 1 - 2 ^ 64) by (apply Z.mod_unique with 1; lia).
      rewrite Z.div_small by lia. reflexivity.
Qed.

Lemma bytes_for_Z d n : Z.of_nat (bytes_for d n) = (Z.of_nat n * Z.of_nat (bit_size d) + 7) / 8.
Proof. unfold bytes_for. rewrite Nat2Z.inj_div, Nat2Z.inj_add, Nat2Z.inj_mul. reflexivity. Qed.

(** ** C27: for suitable dtypes and an element count whose float buffer has a byte size below 2^64, the C functions make spans of exactly
    numel * sizeof(float type) and ceil(numel * bits / 8) bytes and hand them to the C++ functions. *)
Theorem C27_quantize A nt oaddr din dout (numel : nat) scale zp rm thr : float_type din -> quant_type dout ->
  Z.of_nat (numel * stride din) < 2 ^ 64 ->
  c_quantize A nt oaddr (PIQUANT_DTYPE din) (PIQUANT_DTYPE dout) (Z.of_nat numel) scale zp (PIQUANT_MODE rm) thr =
  quantize A nt oaddr (Z.of_nat (numel * stride din)) din (Z.of_nat (bytes_for dout numel)) dout scale zp rm thr.
Proof.
  intros Hf Hq H. unfold c_quantize. rewrite !enum_dtype, enum_mode. cbn [bind]. unfold c_quantize_sizes.
  assert (L : Z.of_nat numel + 7 < 2 ^ 64) by (destruct Hf as [->| ->]; cbn [stride] in H; lia).
  rewrite packed_bytes_ok by (auto; lia). cbn [bind fst snd]. rewrite <- bytes_for_Z. f_equal.
  rewrite <- Nat2Z.inj_mul. apply wrap_u64_id. lia.
Qed.
Theorem C27_dequantize A nt oaddr din dout (numel : nat) scale zp op : quant_type din -> float_type dout ->
  Z.of_nat (numel * stride dout) < 2 ^ 64 ->
  c_dequantize A nt oaddr (PIQUANT_DTYPE din) (PIQUANT_DTYPE dout) (Z.of_nat numel) scale zp (PIQUANT_REDUCE_OP op) =
  dequantize A nt oaddr (Z.of_nat (bytes_for din numel)) din (Z.of_nat (numel * stride dout)) dout scale zp op.
Proof.
  intros Hq Hf H. unfold c_dequantize. rewrite !enum_dtype, enum_op. cbn [bind]. unfold c_dequantize_sizes.
  assert (L : Z.of_nat numel + 7 < 2 ^ 64) by (destruct Hf as [->| ->]; cbn [stride] in H; lia).
  rewrite packed_bytes_ok by (auto; lia). cbn [bind fst snd]. rewrite <- bytes_for_Z. f_equal.
  rewrite <- Nat2Z.inj_mul. apply wrap_u64_id. lia.
Qed.
Theorem C27_compute_params a d dq inm blocks :
  c_compute_quant_params a d inm blocks (PIQUANT_DTYPE dq) = compute_quant_config_from_data a d dq inm blocks.
Proof. unfold c_compute_quant_params. rewrite enum_dtype. reflexivity. Qed.

Lemma numel_exact d n : float_type d -> ApiSpec.numel d (n * stride d) = n.
Proof. intros H. unfold ApiSpec.numel. apply Nat.div_mul. destruct H as [->| ->]; discriminate. Qed.

(** The size assertions of the C++ functions therefore always pass: a C call with suitable dtypes never aborts. *)
Theorem C27_quantize_never_aborts A nt oaddr din dout numel scale zp rm thr : float_type din -> quant_type dout -> sizes_ok (numel * stride din) numel nt ->
  let call := c_quantize A nt oaddr (PIQUANT_DTYPE din) (PIQUANT_DTYPE dout) (Z.of_nat numel) scale zp (PIQUANT_MODE rm) thr in
  (exists jobs, call = Ok jobs) /\ forall inm outm r, returns inm outm call r -> r <> Abort.
Proof.
  intros Hf Hq HS. cbv zeta. rewrite C27_quantize by (auto; destruct HS as (_ & _ & _ & HS); lia).
  pose proof (numel_exact din numel Hf) as E.
  apply (C25_quantize A nt oaddr (numel * stride din) din (bytes_for dout numel) dout scale zp rm thr); [rewrite E; auto|].
  repeat split; auto; rewrite E; reflexivity.
Qed.
Theorem C27_dequantize_never_aborts A nt oaddr din dout numel scale zp op : quant_type din -> float_type dout -> sizes_ok (numel * stride dout) numel nt ->
  let call := c_dequantize A nt oaddr (PIQUANT_DTYPE din) (PIQUANT_DTYPE dout) (Z.of_nat numel) scale zp (PIQUANT_REDUCE_OP op) in
  (exists jobs, call = Ok jobs) /\ forall inm outm r, returns inm outm call r -> r <> Abort.
Proof.
  intros Hq Hf HS. cbv zeta. rewrite C27_dequantize by (auto; destruct HS as (_ & _ & _ & HS); lia).
  pose proof (numel_exact dout numel Hf) as E.
  apply (C25_dequantize A nt oaddr (bytes_for din numel) din (numel * stride dout) dout scale zp op); [rewrite E; auto|].
  repeat split; auto; rewrite E; reflexivity.
Qed.

(** End to end through the C function: [numel] floats in, ceil(numel*bits/8) bytes out, every code as specified. *)
Theorem C27_quantize_codes A nt oaddr din dout numel scale zp thr inm outm r :
  float_type din -> quant_type dout -> Forall is_byte inm -> length inm = (numel * stride din)%nat -> length outm = bytes_for dout numel ->
  sizes_ok (length inm) numel nt -> good_scale scale -> Z.abs zp <= 2 ^ 22 ->
  (forall i, (i < numel)%nat -> nearest_ok A scale (elem_at din inm i)) ->
  returns inm outm (c_quantize A nt oaddr (PIQUANT_DTYPE din) (PIQUANT_DTYPE dout) (Z.of_nat numel) scale zp (PIQUANT_MODE RM_NEAREST) thr) r ->
  exists o, r = Ok o /\ length o = length outm /\
    forall i, (i < numel)%nat -> code_at dout o i = quant_code dout (val scale) zp (val (elem_at din inm i)).
Proof.
  intros Hf Hq Hb Li Lo HS Hg Hz HI HR. rewrite C27_quantize in HR by (auto; destruct HS as (_ & _ & _ & HS); lia).
  pose proof (numel_exact din numel Hf) as E. rewrite <- Li in E. rewrite <- Li, <- Lo in HR.
  destruct (C01_quantize_nearest A nt oaddr din dout scale zp thr inm outm r) as (o & -> & Lo' & HC); auto.
  - repeat split; auto; rewrite ?E; auto; apply HS.
  - rewrite E. auto.
  - exists o. split; auto. split; auto. intros i Hi. rewrite E in HC. apply HC; auto.
Qed.
Theorem C27_dequantize_values A nt oaddr din numel scale zp inm outm r :
  quant_type din -> Forall is_byte inm -> length outm = (numel * 4)%nat -> (bytes_for din numel <= length inm)%nat ->
  (din = DT_UINT2 -> (numel mod 4 = 0)%nat -> (numel > 0)%nat -> (bytes_for din numel < length inm)%nat) ->
  sizes_ok (length outm) numel nt -> Z.abs zp <= 2 ^ 30 ->
  returns inm outm (c_dequantize A nt oaddr (PIQUANT_DTYPE din) (PIQUANT_DTYPE DT_F32) (Z.of_nat numel) scale zp (PIQUANT_REDUCE_OP RO_SET)) r ->
  exists o, r = Ok o /\ length o = length outm /\
    forall i, (i < numel)%nat -> f32_at o i = fmul (f32_of_Z (code_at din inm i - zp)) scale.
Proof.
  intros Hq Hb Lo Li Hx HS Hz HR. rewrite C27_dequantize in HR by (auto; try (left; reflexivity); destruct HS as (_ & _ & _ & HS); cbn [stride]; lia).
  pose proof (numel_exact DT_F32 numel (or_introl eq_refl)) as E. cbn [stride] in E, HR. rewrite <- Lo in E, HR.
  destruct (C07_dequantize_set_f32 A nt oaddr din scale zp inm (bytes_for din numel) outm r) as (o & -> & Lo' & HC & _); auto.
  - repeat split; auto; try (left; reflexivity); rewrite ?E; auto; apply HS.
  - exists o. split; auto. split; auto. intros i Hi. rewrite E in HC. apply HC; auto.
Qed.

(** ** C26: what each combination of enum values does.
    A floating output dtype (piquant_quantize) or a floating input dtype (piquant_dequantize) divides by zero for every element count, including 0,
    before any check; an enum value outside the table reads past it. *)
Theorem C26_quantize_float_output_refuted A nt oaddr dtype_in dout numel scale zp mode thr : valid_dtype dtype_in -> float_type dout ->
  c_quantize A nt oaddr dtype_in (PIQUANT_DTYPE dout) numel scale zp mode thr = UB.
Proof.
  intros Hv Hf. destruct (enum_valid _ Hv) as (d & ->). unfold c_quantize. rewrite !enum_dtype. cbn [bind]. destruct Hf as [->| ->]; reflexivity.
Qed.
Theorem C26_dequantize_float_input_refuted A nt oaddr din dtype_out numel scale zp op : valid_dtype dtype_out -> float_type din ->
  c_dequantize A nt oaddr (PIQUANT_DTYPE din) dtype_out numel scale zp op = UB.
Proof.
  intros Hv Hf. destruct (enum_valid _ Hv) as (d & ->). unfold c_dequantize. rewrite !enum_dtype. cbn [bind]. destruct Hf as [->| ->]; reflexivity.
Qed.
Theorem C26_bad_dtype_refuted A nt oaddr din dout numel scale zp mode op thr : ~ (valid_dtype din /\ valid_dtype dout) ->
  c_quantize A nt oaddr din dout numel scale zp mode thr = UB /\ c_dequantize A nt oaddr din dout numel scale zp op = UB.
Proof.
  intros H. unfold c_quantize, c_dequantize.
  assert (D : valid_dtype din \/ ~ valid_dtype din) by (unfold valid_dtype; lia).
  destruct D as [D|D]; [|rewrite (enum_invalid _ D); split; reflexivity].
  destruct (enum_valid _ D) as (d & ->). rewrite enum_dtype. cbn [bind]. rewrite (enum_invalid dout) by tauto. split; reflexivity.
Qed.
(** The remaining wrong combinations (two quantized dtypes) do abort cleanly, for every element count. *)
Theorem C26_wrong_kind_aborts A nt oaddr din dout numel scale zp mode op thr : quant_type din -> quant_type dout -> 0 <= numel < 2 ^ 64 ->
  c_quantize A nt oaddr (PIQUANT_DTYPE din) (PIQUANT_DTYPE dout) numel scale zp mode thr = Abort /\
  c_dequantize A nt oaddr (PIQUANT_DTYPE din) (PIQUANT_DTYPE dout) numel scale zp op = Abort.
Proof.
  intros Hi Ho Hn. unfold c_quantize, c_dequantize. rewrite !enum_dtype. cbn [bind]. unfold c_quantize_sizes, c_dequantize_sizes.
  assert (P : forall d, quant_type d -> exists b, packed_bytes numel d = Ok b).
  { intros d Hd. destruct (Z_lt_ge_dec (numel + 7) (2 ^ 64)); [rewrite packed_bytes_ok by (auto; lia)|rewrite packed_bytes_wrap by (auto; lia)]; eauto. }
  destruct (P din Hi) as (b1 & ->), (P dout Ho) as (b2 & ->). cbn [bind fst snd].
  assert (Q1 : forall rm, quantize A nt oaddr (wrap_u64 (numel * Z.of_nat (stride din))) din b2 dout scale zp rm thr = Abort).
  { intros rm. unfold quantize. rewrite is_quant_q by auto. reflexivity. }
  assert (Q2 : forall o, dequantize A nt oaddr b1 din (wrap_u64 (numel * Z.of_nat (stride dout))) dout scale zp o = Abort).
  { intros o. unfold dequantize. rewrite !is_quant_q by auto. reflexivity. }
  split; [destruct (round_mode_of_enum mode)|destruct (reduce_op_of_enum op)]; rewrite ?Q1, ?Q2; reflexivity.
Qed.
(** An element count whose byte size wraps around in size_t never gets through: the size assertion fails and nothing is written. *)
Theorem C26_quantize_wrap_aborts A nt oaddr din dout numel scale zp mode thr : float_type din -> quant_type dout -> 0 <= numel < 2 ^ 64 ->
  2 ^ 64 <= numel * Z.of_nat (stride din) ->
  c_quantize A nt oaddr (PIQUANT_DTYPE din) (PIQUANT_DTYPE dout) numel scale zp mode thr = Abort.
Proof.
  intros Hf Hq Hn Hw. unfold c_quantize. rewrite !enum_dtype. cbn [bind]. unfold c_quantize_sizes.
  set (st := Z.of_nat (stride din)) in *. assert (Est : st = 4 \/ st = 2) by (destruct Hf as [->| ->]; cbn; auto).
  set (w := wrap_u64 (numel * st)).
  set (ne := w / st).
  assert (Hne : ne = numel mod (2 ^ 64 / st)).
  { unfold ne, w, wrap_u64. change 18446744073709551616 with (2 ^ 64). destruct Est as [-> | ->]; [change (2 ^ 64 / 4) with (2 ^ 62)|change (2 ^ 64 / 2) with (2 ^ 63)].
    - replace (2 ^ 64) with (2 ^ 62 * 4) by reflexivity. rewrite Z.mul_mod_distr_r by lia. apply Z.div_mul. lia.
    - replace (2 ^ 64) with (2 ^ 63 * 2) by reflexivity. rewrite Z.mul_mod_distr_r by lia. apply Z.div_mul. lia. }
  assert (B : ne + 7 < 2 ^ 64 /\ 0 <= ne /\ ne + 2 ^ 62 <= numel).
  { rewrite Hne. destruct Est as [-> | ->]; [change (2 ^ 64 / 4) with (2 ^ 62)|change (2 ^ 64 / 2) with (2 ^ 63)]; lia. }
  assert (PB : exists b, packed_bytes numel dout = Ok b /\ b <> (ne * Z.of_nat (bit_size dout) + 7) / 8).
  { destruct (Z_lt_ge_dec (numel + 7) (2 ^ 64)).
    - rewrite packed_bytes_ok by (auto; lia). eexists. split; [reflexivity|]. destruct Hq as [->|[->| ->]]; cbn [bit_size]; lia.
    - rewrite packed_bytes_wrap by (auto; lia). eexists. split; [reflexivity|].
      assert (NZ : 2 ^ 61 <= ne) by (rewrite Hne; destruct Est as [-> | ->]; [change (2 ^ 64 / 4) with (2 ^ 62)|change (2 ^ 64 / 2) with (2 ^ 63)]; lia).
      clear - B NZ Hq g Hn.
      destruct Hq as [->|[->| ->]]; cbn [bit_size Nat.eqb]; change (8 / Z.of_nat 2) with 4; change (8 / Z.of_nat 4) with 2; try destruct (Z.ltb_spec (numel + (4 - 1)) (2 ^ 64)); try destruct (Z.ltb_spec (numel + (2 - 1)) (2 ^ 64)); lia. }
  destruct PB as (b & -> & Hb). cbn [bind fst snd].
  assert (Q : forall rm, quantize A nt oaddr w din b dout scale zp rm thr = Abort).
  { intros rm. unfold quantize. rewrite is_quant_fp, is_quant_q by auto. cbn [assert negb bind]. fold st ne.
    pose proof (packed_bytes_ok ne dout Hq ltac:(lia) ltac:(lia)) as E. unfold packed_bytes in E. rewrite E. cbn [bind].
    destruct (Z.eqb_spec b ((ne * Z.of_nat (bit_size dout) + 7) / 8)); [congruence|reflexivity]. }
  destruct (round_mode_of_enum mode); rewrite Q; reflexivity.
Qed.
Theorem C26_dequantize_wrap_aborts A nt oaddr din dout numel scale zp op : quant_type din -> float_type dout -> 0 <= numel < 2 ^ 64 ->
  2 ^ 64 <= numel * Z.of_nat (stride dout) ->
  c_dequantize A nt oaddr (PIQUANT_DTYPE din) (PIQUANT_DTYPE dout) numel scale zp op = Abort.
Proof.
  intros Hq Hf Hn Hw. unfold c_dequantize. rewrite !enum_dtype. cbn [bind]. unfold c_dequantize_sizes.
  set (st := Z.of_nat (stride dout)) in *. assert (Est : st = 4 \/ st = 2) by (destruct Hf as [->| ->]; cbn; auto).
  set (w := wrap_u64 (numel * st)).
  set (ne := w / st).
  assert (Hne : ne = numel mod (2 ^ 64 / st)).
  { unfold ne, w, wrap_u64. change 18446744073709551616 with (2 ^ 64). destruct Est as [-> | ->]; [change (2 ^ 64 / 4) with (2 ^ 62)|change (2 ^ 64 / 2) with (2 ^ 63)].
    - replace (2 ^ 64) with (2 ^ 62 * 4) by reflexivity. rewrite Z.mul_mod_distr_r by lia. apply Z.div_mul. lia.
    - replace (2 ^ 64) with (2 ^ 63 * 2) by reflexivity. rewrite Z.mul_mod_distr_r by lia. apply Z.div_mul. lia. }
  assert (B : ne + 7 < 2 ^ 64 /\ 0 <= ne /\ ne + 2 ^ 62 <= numel).
  { rewrite Hne. destruct Est as [-> | ->]; [change (2 ^ 64 / 4) with (2 ^ 62)|change (2 ^ 64 / 2) with (2 ^ 63)]; lia. }
  assert (PB : exists b, packed_bytes numel din = Ok b /\ b <> (ne * Z.of_nat (bit_size din) + 7) / 8).
  { destruct (Z_lt_ge_dec (numel + 7) (2 ^ 64)).
    - rewrite packed_bytes_ok by (auto; lia). eexists. split; [reflexivity|]. destruct Hq as [->|[->| ->]]; cbn [bit_size]; lia.
    - rewrite packed_bytes_wrap by (auto; lia). eexists. split; [reflexivity|].
      assert (NZ : 2 ^ 61 <= ne) by (rewrite Hne; destruct Est as [-> | ->]; [change (2 ^ 64 / 4) with (2 ^ 62)|change (2 ^ 64 / 2) with (2 ^ 63)]; lia).
      clear - B NZ Hq g Hn.
      destruct Hq as [->|[->| ->]]; cbn [bit_size Nat.eqb]; change (8 / Z.of_nat 2) with 4; change (8 / Z.of_nat 4) with 2; try destruct (Z.ltb_spec (numel + (4 - 1)) (2 ^ 64)); try destruct (Z.ltb_spec (numel + (2 - 1)) (2 ^ 64)); lia. }
  destruct PB as (b & -> & Hb). cbn [bind fst snd].
  assert (Q : forall o, dequantize A nt oaddr b din w dout scale zp o = Abort).
  { intros o. unfold dequantize. rewrite (is_quant_fp dout), (is_quant_q din) by auto. cbn [assert negb bind]. fold st ne.
    pose proof (packed_bytes_ok ne din Hq ltac:(lia) ltac:(lia)) as E. unfold packed_bytes in E.
    assert (PN : exists p, packed_numel ne din = Ok p /\ wrap_u64 (p * Z.of_nat (stride din)) = (ne * Z.of_nat (bit_size din) + 7) / 8).
    { clear - E Hq B. destruct Hq as [->|[->| ->]]; cbn [bit_size Nat.eqb] in E.
      - destruct (packed_numel ne DT_UINT2); cbn [bind] in E; try discriminate. injection E as E. eauto.
      - destruct (packed_numel ne DT_UINT4); cbn [bind] in E; try discriminate. injection E as E. eauto.
      - injection E as E. unfold packed_numel. cbn [bit_size stride]. change (8 / Z.of_nat 8) with 1. cbn [Z.eqb Pos.eqb]. eexists. split; [reflexivity|].
        clear E. rewrite Z.div_1_r, (wrap_u64_id (ne + 1 - 1)) by lia. change (Z.of_nat 1) with 1. change (Z.of_nat 8) with 8. rewrite wrap_u64_id by lia. lia. }
    destruct PN as (p & -> & PN). cbn [bind]. rewrite PN.
    destruct (Z.eqb_spec b ((ne * Z.of_nat (bit_size din) + 7) / 8)); [congruence|reflexivity]. }
  destruct (reduce_op_of_enum op); rewrite Q; reflexivity.
Qed.
