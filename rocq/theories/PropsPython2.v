(** PropsPython2.v -- C38: what every torch call does: which arguments are refused, and the exact library call the others make. *)
From Coq Require Import String ZArith Lia Bool Arith ZifyBool ZifyNat Reals List.
From Flocq Require Import Core Binary Bits.
From Verif Require Import Base Floats Simd Dtypes Spec ApiSpec QuantKernels DequantKernels ExecFacts FloatFacts Context ContextFacts Api QuantizeFacts PropsQuantize PropsDequantize
  PropsDispatch QuantLanes QuantFacts QuantKernelFacts QuantGenericFacts DequantFacts DequantGenericFacts FloatFacts2 PropsRoundTrip MinMax Capi PropsCapi Python PropsPython PropsDequantBf16.
Import ListNotations.
Local Open Scope Z_scope.
Ltac Zify.zify_post_hook ::= Z.div_mod_to_equations.

(** ** Vocabulary: the dtypes and names the documentation of torch.py accepts. *)
Definition float_dtype (t : torch_dtype) (d : dtype) : Prop := (t = T_float32 /\ d = DT_F32) \/ (t = T_bfloat16 /\ d = DT_BF16).
Definition quant_dtype (t : torch_dtype) (d : dtype) : Prop :=
  (t = T_quint2x4 /\ d = DT_UINT2) \/ (t = T_quint4x2 /\ d = DT_UINT4) \/ ((t = T_quint8 \/ t = T_uint8) /\ d = DT_UINT8).
Definition mode_name (rm : round_mode_t) : string := match rm with RM_NEAREST => "nearest" | RM_STOCHASTIC => "stochastic" end.
Definition op_name (op : reduce_op) : string := match op with RO_SET => "set" | RO_ADD => "add" end.
(** a zero point cffi can pass as int64_t *)
Definition zp_fits (zp : Z) : Prop := - 2 ^ 63 <= zp < 2 ^ 63.

Lemma float_dtype_iff t d : float_dtype t d <-> torch_to_piquant_dtype t = Some d /\ float_type d.
Proof.
  unfold float_dtype, float_type. split.
  - intros [[-> ->]|[-> ->]]; split; auto.
  - intros [E F]. destruct t; cbn in E; try discriminate; injection E as <-; auto; destruct F; discriminate.
Qed.
Lemma quant_dtype_iff t d : quant_dtype t d <-> torch_to_piquant_dtype t = Some d /\ quant_type d.
Proof.
  unfold quant_dtype, quant_type. split.
  - intros [[-> ->]|[[-> ->]|[[->| ->] ->]]]; split; auto.
  - intros [E F]. destruct t; cbn in E; try discriminate; injection E as <-; auto; destruct F as [|[|]]; discriminate.
Qed.
Lemma in_quant t : in_set t QUANT_TYPES = true <-> exists d, quant_dtype t d.
Proof.
  unfold quant_dtype. split.
  - destruct t; cbn; intros; try discriminate; eexists; intuition eauto.
  - intros (d & [[-> _]|[[-> _]|[[->| ->] _]]]); reflexivity.
Qed.
Lemma in_dequant t : in_set t DEQUANT_TYPES = true <-> exists d, float_dtype t d.
Proof.
  unfold float_dtype. split.
  - destruct t; cbn; intros; try discriminate; eexists; intuition eauto.
  - intros (d & [[-> _]|[-> _]]); reflexivity.
Qed.
Lemma mode_iff s rm : ROUND_MODES s = Some rm <-> s = mode_name rm.
Proof.
  unfold ROUND_MODES. destruct (String.eqb_spec s "nearest") as [->|N]; [destruct rm; cbn; split; intros; congruence|].
  destruct (String.eqb_spec s "stochastic") as [->|N']; destruct rm; cbn; split; intros; congruence.
Qed.
Lemma op_iff s op : REDUCE_OPS s = Some op <-> s = op_name op.
Proof.
  unfold REDUCE_OPS. destruct (String.eqb_spec s "set") as [->|N]; [destruct op; cbn; split; intros; congruence|].
  destruct (String.eqb_spec s "add") as [->|N']; destruct op; cbn; split; intros; congruence.
Qed.

(** ** torch.quantize: refused, or exactly one library call with the right sizes. *)
Definition quantize_args (t : tensor) (tq : torch_dtype) (zp : Z) (mode : string) (din dq : dtype) (rm : round_mode_t) : Prop :=
  float_dtype (t_dtype t) din /\ quant_dtype tq dq /\ mode = mode_name rm /\ (0 < elements (t_shape t))%nat /\ zp_fits zp.
Theorem C38_torch_quantize_outcome A nt t out scale zp tq mode thr :
  torch_tensor t -> torch_tensor out -> t_dtype out = tq -> t_shape out = t_shape t ->
  let n := elements (t_shape t) in
  Z.of_nat (n * 4) < 2 ^ 64 ->
  (exists din dq rm, quantize_args t tq zp mode din dq rm /\ length (t_data t) = (n * stride din)%nat /\ (bytes_for dq n <= length (t_data out))%nat /\
     torch_quantize false A nt t scale zp tq mode out thr =
       Ret (quantize A nt (wrap_u64 (t_ptr out)) (Z.of_nat (n * stride din)) din (Z.of_nat (bytes_for dq n)) dq (f32_of_f64 scale) zp rm thr)) \/
  ((~ exists din dq rm, quantize_args t tq zp mode din dq rm) /\ exists e, torch_quantize false A nt t scale zp tq mode out thr = Raise e).
Proof.
  intros Ht Ho Eo Es n S4. unfold torch_quantize, py_assert. cbn [orb].
  destruct (in_set tq QUANT_TYPES) eqn:QT.
  2: { right. split; [|eauto]. intros (din & dq & rm & _ & Q & _). rewrite (proj2 (in_quant tq) (ex_intro _ dq Q)) in QT. discriminate. }
  apply in_quant in QT. destruct QT as (dq & Q). pose proof Q as Q'. apply quant_dtype_iff in Q'. destruct Q' as [Eq Hq]. rewrite Eq.
  destruct (torch_to_piquant_dtype (t_dtype t)) as [din|] eqn:Ed.
  2: { right. split; [|eauto]. intros (din & dq' & rm & F & _). apply float_dtype_iff in F. destruct F as [F _]. congruence. }
  destruct (ROUND_MODES mode) as [rm|] eqn:Em.
  2: { right. split; [|eauto]. intros (din' & dq' & rm & _ & _ & M & _). apply mode_iff in M. congruence. }
  change (t_numel t) with n.
  destruct (C38_quantize_ptr A nt (t_ptr t) din (t_ptr out) dq n scale zp rm thr S4) as [[G E]|[G (e & E)]].
  - left. destruct G as (Hf & _ & P1 & P2 & Hn & Hz). exists din, dq, rm.
    assert (F : float_dtype (t_dtype t) din) by (apply float_dtype_iff; auto).
    split; [|split; [destruct Ht as (-> & _); apply float_storage; auto|split; [destruct Ho as (-> & _); rewrite Eo, Es; apply C38_output_fits; auto|exact E]]].
    split; auto. split; auto. split; [apply mode_iff; auto|]. split; auto. destruct Ht as (_ & _ & Hp). destruct (elements (t_shape t)); [exfalso; apply P1, Hp; auto|lia].
  - right. split; [|eauto]. intros (din' & dq' & rm' & F & Q2 & M & Hp & Hz). apply G.
    apply float_dtype_iff in F. destruct F as [F1 F2]. assert (din' = din) as -> by congruence.
    destruct Ht as (_ & _ & Ht), Ho as (_ & _ & Ho). rewrite Es in Ho. unfold zp_fits in Hz. unfold good_ptr_call. fold n in Hp, Ht, Ho.
    split; auto. split; auto. split; [intros X; apply Ht in X; lia|]. split; [intros X; apply Ho in X; lia|]. split; [lia|auto].
Qed.
(** With one stochastic or nearest call made: the returned tensor holds the documented codes. *)
Theorem C38_torch_quantize_codes A nt t out scale zp tq mode thr din dq rm r :
  torch_tensor t -> torch_tensor out -> t_dtype out = tq -> t_shape out = t_shape t -> quantize_args t tq zp mode din dq rm ->
  let n := elements (t_shape t) in
  sizes_ok (length (t_data t)) n nt -> good_scale (f32_of_f64 scale) ->
  (rm = RM_STOCHASTIC -> threshold thr /\ Z.abs zp <= 2 ^ 62) -> (rm = RM_NEAREST -> Z.abs zp <= 2 ^ 22) ->
  (forall i, (i < n)%nat -> input_ok A rm (f32_of_f64 scale) zp thr (elem_at din (t_data t) i)) ->
  exists call, torch_quantize false A nt t scale zp tq mode out thr = Ret call /\
    (returns (t_data t) (t_data out) call r ->
     exists o, r = Ok o /\ length o = length (t_data out) /\
       (forall i, (i < n)%nat -> code_at dq o i = expected_code rm dq (f32_of_f64 scale) zp thr (elem_at din (t_data t) i)) /\
       (forall k, (bytes_for dq n <= k)%nat -> nth k o 0 = nth k (t_data out) 0)).
Proof.
  intros Ht Ho Eo Es HA n HS Hg Hst Hne HI. pose proof HA as (F & Q & M & Hpos & Hz). pose proof F as F'. apply float_dtype_iff in F'. destruct F' as [Ed Hf].
  pose proof Q as Q'. apply quant_dtype_iff in Q'. destruct Q' as [Eq Hq].
  assert (LT : length (t_data t) = (n * stride din)%nat) by (destruct Ht as (-> & _); apply float_storage; auto).
  assert (S4 : Z.of_nat (n * 4) < 2 ^ 64).
  { destruct HS as (_ & _ & _ & HS'). rewrite LT in HS'. destruct Hf as [->| ->]; cbn [stride] in HS'; lia. }
  destruct (C38_torch_quantize_outcome A nt t out scale zp tq mode thr Ht Ho Eo Es S4) as [(din' & dq' & rm' & HA' & _ & LO & E)|[N _]]; [|exfalso; eauto].
  destruct HA' as (F2 & Q2 & M2 & _). apply float_dtype_iff in F2. apply quant_dtype_iff in Q2. destruct F2 as [F2 _], Q2 as [Q2 _].
  assert (din' = din) as -> by congruence. assert (dq' = dq) as -> by congruence.
  assert (rm' = rm) as -> by (apply mode_iff in M; apply mode_iff in M2; congruence).
  fold n in LO, E. eexists. split; [exact E|]. intros HR.
  assert (NE : numel din (n * stride din) = n) by (apply numel_exact; auto).
  rewrite LT in HS. apply quantize_bytes in HR; auto.
  - rewrite NE in HR. eexists. split; [exact HR|].
    assert (LB : length (map (packed_byte dq n (fun i => expected_code rm dq (f32_of_f64 scale) zp thr (elem_at din (t_data t) i))) (seq 0 (bytes_for dq n))) = bytes_for dq n)
      by (rewrite map_length, seq_length; auto).
    split; [rewrite app_length, LB, skipn_length; lia|]. split.
    + intros i Hi. rewrite code_at_app; auto.
      2: { rewrite LB, codes_per_byte_q, bytes_for_per_byte by auto. destruct Hq as [->|[->| ->]]; cbn [per_byte]; lia. }
      rewrite <- (app_nil_r (map _ _)).
      rewrite (map_ext _ (byte_of dq (cut n (fun i => expected_code rm dq (f32_of_f64 scale) zp thr (elem_at din (t_data t) i))))) by (intros; symmetry; apply byte_of_packed; auto).
      rewrite code_at_byte_of; auto.
      * rewrite cut_lt by auto. reflexivity.
      * intros; apply expected_range; auto.
      * rewrite bytes_for_per_byte by auto. destruct Hq as [->|[->| ->]]; cbn [per_byte]; lia.
    + intros k Hk. rewrite app_nth2 by (rewrite LB; auto). rewrite LB. rewrite <- (firstn_skipn (bytes_for dq n) (t_data out)) at 2. rewrite app_nth2; rewrite firstn_length, Nat.min_l by lia; auto.
  - apply Ht.
  - rewrite LT. auto.
  - rewrite NE. auto.
  - rewrite NE. auto.
Qed.

(** ** torch.dequantize *)
Definition dequantize_args (t : tensor) (td : torch_dtype) (zp : Z) (op : string) (dq dout : dtype) (o : reduce_op) : Prop :=
  quant_dtype (t_dtype t) dq /\ float_dtype td dout /\ op = op_name o /\ (0 < elements (t_shape t))%nat /\ zp_fits zp.
Theorem C38_torch_dequantize_outcome A nt t out scale zp td op :
  torch_tensor t -> torch_tensor out -> t_dtype out = td -> t_shape out = t_shape t ->
  let n := elements (t_shape t) in
  Z.of_nat (n * 4) < 2 ^ 64 ->
  (exists dq dout o, dequantize_args t td zp op dq dout o /\ (bytes_for dq n <= length (t_data t))%nat /\ length (t_data out) = (n * stride dout)%nat /\
     torch_dequantize false A nt t scale zp td op out =
       Ret (dequantize_call A nt (wrap_u64 (t_ptr out)) dq dout (f32_of_f64 scale) zp o (bytes_for dq n) (t_data out))) \/
  ((~ exists dq dout o, dequantize_args t td zp op dq dout o) /\ exists e, torch_dequantize false A nt t scale zp td op out = Raise e).
Proof.
  intros Ht Ho Eo Es n S4. unfold torch_dequantize.
  destruct (in_set td DEQUANT_TYPES) eqn:DT; cbn [negb].
  2: { right. split; [|eauto]. intros (dq & dout & o & _ & F & _). rewrite (proj2 (in_dequant td) (ex_intro _ dout F)) in DT. discriminate. }
  apply in_dequant in DT. destruct DT as (dout & F). pose proof F as F'. apply float_dtype_iff in F'. destruct F' as [Ed Hf]. rewrite Eo, Ed.
  destruct (torch_to_piquant_dtype (t_dtype t)) as [dq|] eqn:Eq.
  2: { right. split; [|eauto]. intros (dq & dout' & o & Q & _). apply quant_dtype_iff in Q. destruct Q as [Q _]. congruence. }
  destruct (REDUCE_OPS op) as [o|] eqn:Em.
  2: { right. split; [|eauto]. intros (dq' & dout' & o & _ & _ & M & _). apply op_iff in M. congruence. }
  change (t_numel t) with n.
  assert (LO : length (t_data out) = (n * stride dout)%nat) by (destruct Ho as (-> & _); rewrite Eo, Es; apply float_storage; auto).
  destruct (C38_dequantize_ptr A nt (t_ptr t) dq (t_ptr out) dout n scale zp o S4) as [[G E]|[G (e & E)]].
  - left. destruct G as (_ & Hq & P1 & P2 & Hn & Hz). exists dq, dout, o.
    assert (Q : quant_dtype (t_dtype t) dq) by (apply quant_dtype_iff; auto).
    split; [|split; [destruct Ht as (-> & _); apply C38_output_fits; auto|split; [exact LO|rewrite E; unfold dequantize_call; rewrite LO; reflexivity]]].
    split; auto. split; auto. split; [apply op_iff; auto|]. split; auto. destruct Ht as (_ & _ & Hp). destruct (elements (t_shape t)); [exfalso; apply P1, Hp; auto|lia].
  - right. split; [|eauto]. intros (dq' & dout' & o' & Q2 & F2 & M & Hp & Hz). apply G.
    apply quant_dtype_iff in Q2. destruct Q2 as [Q1 Q2]. assert (dq' = dq) as -> by congruence.
    destruct Ht as (_ & _ & Ht), Ho as (_ & _ & Ho). rewrite Es in Ho. unfold zp_fits in Hz. unfold good_ptr_call. fold n in Hp, Ht, Ho.
    split; auto. split; auto. split; [intros X; apply Ht in X; lia|]. split; [intros X; apply Ho in X; lia|]. split; [lia|auto].
Qed.
(** The output dtype is checked by an explicit raise, so also under python -O: everything but float32 and bfloat16 is a ValueError. *)
Theorem C38_dequantize_output_checked opt A nt t out scale zp td op :
  td <> T_float32 -> td <> T_bfloat16 -> torch_dequantize opt A nt t scale zp td op out = Raise ValueError.
Proof. intros H1 H2. unfold torch_dequantize. destruct td; try congruence; reflexivity. Qed.
(** 'set' to bfloat16: what C07 says about the buffer, for the tensor's elements. *)
Theorem C38_torch_dequantize_bf16 A nt t out scale zp dq r :
  torch_tensor t -> torch_tensor out -> t_dtype out = T_bfloat16 -> t_shape out = t_shape t -> (0 < elements (t_shape t))%nat -> quant_dtype (t_dtype t) dq ->
  let n := elements (t_shape t) in
  sizes_ok (length (t_data out)) n nt -> Z.of_nat (n * 4) < 2 ^ 64 -> Z.abs zp <= 2 ^ 22 -> overread_ok dq n (t_data t) ->
  exists call, torch_dequantize false A nt t scale zp T_bfloat16 "set" out = Ret call /\
    (returns (t_data t) (t_data out) call r ->
     exists o, r = Ok o /\ length o = length (t_data out) /\
       (forall i, (i < n)%nat -> avx512 A = false \/ (dq = DT_UINT8 /\ A <> AVX512BF16 /\ finite (f32_of_f64 scale)) ->
          bf16_at o i = bf16_of_f32 (fmul (f32_of_Z (code_at dq (t_data t) i - zp)) (f32_of_f64 scale))) /\
       (forall i, (i < n)%nat -> let vec := bf16_vector_path A dq n nt i in
          bf16_at o i = bf16_convert A vec (bf16_source dq vec (f32_of_f64 scale) zp (code_at dq (t_data t) i)))).
Proof.
  intros Ht Ho Eo Es Hpos Q n HS S4 Hz Hx.
  destruct (C38_torch_dequantize_outcome A nt t out scale zp T_bfloat16 "set" Ht Ho Eo Es S4) as [(dq' & dout & o & HA & LT & LO & E)|[N _]].
  2: { exfalso. apply N. exists dq, DT_BF16, RO_SET. split; auto. split; [right; auto|]. split; [reflexivity|]. split; auto. unfold zp_fits. lia. }
  destruct HA as (Q2 & F2 & M & _). pose proof Q as Q'. apply quant_dtype_iff in Q'. apply quant_dtype_iff in Q2. destruct Q' as [Q' Hq], Q2 as [Q2 _]. assert (dq' = dq) as -> by congruence.
  assert (dout = DT_BF16) as -> by (destruct F2 as [[X _]|[_ X]]; [discriminate|auto]). assert (o = RO_SET) as -> by (destruct o; [reflexivity|discriminate]).
  fold n in LT, LO, E. eexists. split; [exact E|]. intros HR.
  assert (NE : numel DT_BF16 (length (t_data out)) = n) by (rewrite LO; apply numel_exact; right; reflexivity).
  assert (HB : dq_buffers nt dq DT_BF16 (t_data t) (bytes_for dq n) (t_data out)).
  { repeat split; auto; try (right; reflexivity); try apply Ht; rewrite ?NE; auto; apply HS. }
  destruct (C07_dequantize_set_bf16 A nt _ dq (f32_of_f64 scale) zp (t_data t) _ (t_data out) r HB Hz (proj1 (proj2 Ho)) HR) as (o & -> & L & H1 & H2 & H3 & _).
  rewrite NE in *. exists o. split; auto. split; auto. split; auto. intros i Hi [Ha|(-> & Ha & Hf)]; auto.
Qed.

(** ** torch.compute_quant_params: refused exactly when the target is not a quantized dtype or the tensor is empty. *)
Theorem C38_torch_params_outcome a t tq blocks : torch_tensor t -> Z.of_nat (elements (t_shape t)) < 2 ^ 64 ->
  (exists dq, quant_dtype tq dq /\ (0 < elements (t_shape t))%nat /\
     torch_compute_quant_params false a t tq blocks =
       Ret (compute_quant_config_from_data a (if torch_dtype_eqb (t_dtype t) T_bfloat16 then DT_BF16 else DT_F32) dq (t_data t) blocks)) \/
  ((~ exists dq, quant_dtype tq dq /\ (0 < elements (t_shape t))%nat) /\ torch_compute_quant_params false a t tq blocks = Raise AssertionError).
Proof.
  intros (_ & _ & Hp) Hb. unfold torch_compute_quant_params, py_assert. cbn [orb].
  destruct (in_set tq QUANT_TYPES) eqn:QT.
  2: { right. split; auto. intros (dq & Q & _). rewrite (proj2 (in_quant tq) (ex_intro _ dq Q)) in QT. discriminate. }
  apply in_quant in QT. destruct QT as (dq & Q). pose proof Q as Q'. apply quant_dtype_iff in Q'. destruct Q' as [Eq Hq]. rewrite Eq.
  assert (X : forall d, compute_quant_params_ptr false a d (t_ptr t) dq (Z.of_nat (t_numel t)) (t_data t) blocks =
     if t_ptr t =? 0 then Raise AssertionError else Ret (compute_quant_config_from_data a d dq (t_data t) blocks)).
  { intros d. unfold compute_quant_params_ptr, py_assert. rewrite (proj2 (q_quant dq)) by auto. cbn [orb]. destruct (Z.eqb_spec (t_ptr t) 0); cbn [negb]; auto.
    unfold cffi_size_t. change (t_numel t) with (elements (t_shape t)).
    replace ((0 <=? Z.of_nat (elements (t_shape t))) && (Z.of_nat (elements (t_shape t)) <? 2 ^ 64)) with true by lia.
    change (py_value dq) with (PIQUANT_DTYPE dq). rewrite C27_compute_params. reflexivity. }
  rewrite !X. destruct (Z.eqb_spec (t_ptr t) 0) as [Z0|NZ].
  - right. apply Hp in Z0. split; [intros (d & _ & L); lia|]. destruct (torch_dtype_eqb _ _); reflexivity.
  - left. exists dq. split; auto. split; [destruct (elements (t_shape t)); [exfalso; apply NZ, Hp; auto|lia]|]. destruct (torch_dtype_eqb _ _); reflexivity.
Qed.

(** Instances: a 2x3 float32 tensor quantized stochastically to quint4x2, a 2x3 quint2x4 tensor dequantized to bfloat16, refused calls. *)
Example C38_outcome_witness :
  quantize_args (mk_tensor T_float32 [2; 3]%nat 8192 (repeat 0 24)) T_quint4x2 7 "stochastic" DT_F32 DT_UINT4 RM_STOCHASTIC /\
  dequantize_args (mk_tensor T_quint2x4 [2; 3]%nat 4096 [27; 9]) T_bfloat16 (-5) "add" DT_UINT2 DT_BF16 RO_ADD /\
  torch_tensor (mk_tensor T_quint4x2 [2; 3]%nat 4096 [1; 2; 3; 4]) /\ torch_tensor (mk_tensor T_bfloat16 [2; 3]%nat 4096 (repeat 0 12)) /\
  ~ (exists dq dout o, dequantize_args (mk_tensor T_quint2x4 [2; 3]%nat 4096 [27; 9]) T_float16 0 "set" dq dout o) /\
  ~ (exists din dq rm, quantize_args (mk_tensor T_float32 [2; 3]%nat 8192 (repeat 0 24)) T_quint4x2 7 "round" din dq rm).
Proof.
  split; [|split; [|split; [|split; [|split]]]].
  - split; [left; auto|]. split; [right; left; auto|]. split; [reflexivity|]. split; [cbn; lia|unfold zp_fits; lia].
  - split; [left; auto|]. split; [right; auto|]. split; [reflexivity|]. split; [cbn; lia|unfold zp_fits; lia].
  - repeat split; cbn [t_data t_ptr t_dtype t_shape]; try (cbn; discriminate); try (intros; cbn in *; discriminate). repeat constructor; unfold is_byte; lia.
  - repeat split; cbn [t_data t_ptr t_dtype t_shape]; try (cbn; discriminate); try (intros; cbn in *; discriminate). cbn [repeat]. repeat constructor; unfold is_byte; lia.
  - intros (dq & dout & o & _ & [[X _]|[X _]] & _); discriminate.
  - intros (din & dq & rm & _ & _ & X & _). destruct rm; discriminate.
Qed.
