(** PropsPython.v -- C38: the Python package. *)
From Coq Require Import String ZArith Lia Bool Arith ZifyBool ZifyNat Reals List.
From Flocq Require Import Core Binary Bits.
From Verif Require Import Base Floats Simd Dtypes Spec ApiSpec QuantKernels DequantKernels ExecFacts FloatFacts Context ContextFacts Api QuantizeFacts PropsQuantize PropsDequantize
  PropsDispatch QuantLanes QuantFacts QuantKernelFacts QuantGenericFacts DequantFacts DequantGenericFacts FloatFacts2 PropsRoundTrip MinMax Capi PropsCapi Python.
Import ListNotations.
Local Open Scope Z_scope.
Ltac Zify.zify_post_hook ::= Z.div_mod_to_equations.

(** ** The helpers.  bit_size, is_quantized and is_dequantized agree with the library's dtype table, the members' values with the C header. *)
Theorem C38_helpers d :
  py_bit_size d = Z.of_nat (bit_size d) /\ py_is_quantized d = is_quant d /\ py_is_dequantized d = negb (is_quant d) /\ py_value d = PIQUANT_DTYPE d.
Proof. destruct d; repeat split; reflexivity. Qed.
(** DataType.stride is the library's element stride for uint8 only: it gives 1 for both float types and 0 for the packed types. *)
Theorem C38_stride_refuted d : py_stride d = Z.of_nat (stride d) <-> d = DT_UINT8.
Proof. destruct d; cbn; split; intros; try discriminate; auto. Qed.
(** piquant_to_torch_dtype raises for every argument, although torch_to_piquant_dtype maps some torch dtype to each of them. *)
Theorem C38_piquant_to_torch_refuted d :
  piquant_to_torch_dtype d = None /\ exists t, torch_to_piquant_dtype t = Some d.
Proof.
  split; [reflexivity|].
  destruct d; [exists T_float32|exists T_bfloat16|exists T_quint2x4|exists T_quint4x2|exists T_quint8]; reflexivity.
Qed.
(** A context made without a thread count always has at least one worker, so C35 (nothing happens with 0 threads) cannot occur by default. *)
Theorem C38_default_threads cpu_count : 1 <= py_num_threads None cpu_count /\ (2 <= cpu_count -> py_num_threads None cpu_count = cpu_count - 1).
Proof. cbn. lia. Qed.

(** ** The pointer interface: the calls that get through, and what they compute. *)
Definition good_ptr_call (float_t quant_t : dtype) (ptr_in ptr_out numel zp : Z) : Prop :=
  float_type float_t /\ quant_type quant_t /\ ptr_in <> 0 /\ ptr_out <> 0 /\ 0 <= numel < 2 ^ 64 /\ - 2 ^ 63 <= zp < 2 ^ 63.

Lemma deq_float d : py_is_dequantized d = true <-> float_type d.
Proof. destruct d; cbn; unfold float_type; split; intros; try discriminate; try tauto; destruct H; discriminate. Qed.
Lemma q_quant d : py_is_quantized d = true <-> quant_type d.
Proof. destruct d; cbn; unfold quant_type; split; intros; try discriminate; try tauto; destruct H as [|[|]]; discriminate. Qed.
Lemma in_i64_iff z : in_i64 z = true <-> - 2 ^ 63 <= z < 2 ^ 63.
Proof. unfold in_i64. lia. Qed.

Lemma quantize_ptr_cases A nt pin din pout dout n scale zp rm thr :
  let r := quantize_ptr false A nt pin din pout dout n scale zp rm thr in
  (good_ptr_call din dout pin pout n zp ->
    r = Ret (c_quantize A nt (wrap_u64 pout) (PIQUANT_DTYPE din) (PIQUANT_DTYPE dout) n (f32_of_f64 scale) zp (PIQUANT_MODE rm) thr)) /\
  (~ good_ptr_call din dout pin pout n zp -> exists e, r = Raise e).
Proof.
  cbv zeta. unfold quantize_ptr, py_assert, cffi_size_t, cffi_int64, good_ptr_call. rewrite <- deq_float, <- q_quant, <- in_i64_iff. cbn [orb].
  destruct (py_is_dequantized din); [|split; [intros (? & _); discriminate|eauto]].
  destruct (py_is_quantized dout); [|split; [intros (_ & ? & _); discriminate|eauto]].
  destruct (Z.eqb_spec pin 0); cbn [negb]; [split; [tauto|eauto]|].
  destruct (Z.eqb_spec pout 0); cbn [negb]; [split; [tauto|eauto]|].
  destruct (Z.leb_spec 0 n); cbn [andb]; [|split; [intros; lia|eauto]].
  destruct (Z.ltb_spec n (2 ^ 64)); [|split; [intros; lia|eauto]].
  destruct (in_i64 zp); [|split; [intros (_ & _ & _ & _ & _ & ?); discriminate|eauto]].
  split; [reflexivity|]. intros H'. exfalso. apply H'. auto 10.
Qed.
Lemma dequantize_ptr_cases A nt pin din pout dout n scale zp op :
  let r := dequantize_ptr false A nt pin din pout dout n scale zp op in
  (good_ptr_call dout din pin pout n zp ->
    r = Ret (c_dequantize A nt (wrap_u64 pout) (PIQUANT_DTYPE din) (PIQUANT_DTYPE dout) n (f32_of_f64 scale) zp (PIQUANT_REDUCE_OP op))) /\
  (~ good_ptr_call dout din pin pout n zp -> exists e, r = Raise e).
Proof.
  cbv zeta. unfold dequantize_ptr, py_assert, cffi_size_t, cffi_int64, good_ptr_call. rewrite <- deq_float, <- q_quant, <- in_i64_iff. cbn [orb].
  destruct (py_is_quantized din); [|split; [intros (_ & ? & _); discriminate|eauto]].
  destruct (py_is_dequantized dout); [|split; [intros (? & _); discriminate|eauto]].
  destruct (Z.eqb_spec pin 0); cbn [negb]; [split; [tauto|eauto]|].
  destruct (Z.eqb_spec pout 0); cbn [negb]; [split; [tauto|eauto]|].
  destruct (Z.leb_spec 0 n); cbn [andb]; [|split; [intros; lia|eauto]].
  destruct (Z.ltb_spec n (2 ^ 64)); [|split; [intros; lia|eauto]].
  destruct (in_i64 zp); [|split; [intros (_ & _ & _ & _ & _ & ?); discriminate|eauto]].
  split; [reflexivity|]. intros H'. exfalso. apply H'. auto 10.
Qed.
(** With assertions enabled, a pointer call either raises before anything happens (exactly when an argument is unsuitable) or is the C++ call
    with matching span sizes; the division by zero of C26 cannot be reached. *)
Theorem C38_quantize_ptr A nt pin din pout dout (n : nat) scale zp rm thr : Z.of_nat (n * 4) < 2 ^ 64 ->
  let r := quantize_ptr false A nt pin din pout dout (Z.of_nat n) scale zp rm thr in
  (good_ptr_call din dout pin pout (Z.of_nat n) zp /\
     r = Ret (quantize A nt (wrap_u64 pout) (Z.of_nat (n * stride din)) din (Z.of_nat (bytes_for dout n)) dout (f32_of_f64 scale) zp rm thr)) \/
  (~ good_ptr_call din dout pin pout (Z.of_nat n) zp /\ exists e, r = Raise e).
Proof.
  intros Hn. cbv zeta. destruct (quantize_ptr_cases A nt pin din pout dout (Z.of_nat n) scale zp rm thr) as [H1 H2].
  assert (D : good_ptr_call din dout pin pout (Z.of_nat n) zp \/ ~ good_ptr_call din dout pin pout (Z.of_nat n) zp).
  { unfold good_ptr_call, float_type, quant_type. destruct din, dout; (left; intuition (auto; lia)) || (right; intuition discriminate) || idtac;
    destruct (Z.eq_dec pin 0), (Z.eq_dec pout 0), (Z_lt_dec zp (- 2 ^ 63)), (Z_lt_dec zp (2 ^ 63)); (left; intuition (auto; lia)) || (right; intuition lia). }
  destruct D as [D|D]; [left|right; auto]. split; auto. rewrite H1 by auto. f_equal. destruct D as (Hf & Hq & _).
  apply C27_quantize; auto. destruct Hf as [->| ->]; cbn [stride]; lia.
Qed.
Theorem C38_dequantize_ptr A nt pin din pout dout (n : nat) scale zp op : Z.of_nat (n * 4) < 2 ^ 64 ->
  let r := dequantize_ptr false A nt pin din pout dout (Z.of_nat n) scale zp op in
  (good_ptr_call dout din pin pout (Z.of_nat n) zp /\
     r = Ret (dequantize A nt (wrap_u64 pout) (Z.of_nat (bytes_for din n)) din (Z.of_nat (n * stride dout)) dout (f32_of_f64 scale) zp op)) \/
  (~ good_ptr_call dout din pin pout (Z.of_nat n) zp /\ exists e, r = Raise e).
Proof.
  intros Hn. cbv zeta. destruct (dequantize_ptr_cases A nt pin din pout dout (Z.of_nat n) scale zp op) as [H1 H2].
  assert (D : good_ptr_call dout din pin pout (Z.of_nat n) zp \/ ~ good_ptr_call dout din pin pout (Z.of_nat n) zp).
  { unfold good_ptr_call, float_type, quant_type. destruct din, dout; (right; intuition discriminate) || idtac;
    destruct (Z.eq_dec pin 0), (Z.eq_dec pout 0), (Z_lt_dec zp (- 2 ^ 63)), (Z_lt_dec zp (2 ^ 63)); (left; intuition (auto; lia)) || (right; intuition lia). }
  destruct D as [D|D]; [left|right; auto]. split; auto. rewrite H1 by auto. f_equal. destruct D as (Hf & Hq & _).
  apply C27_dequantize; auto. destruct Hf as [->| ->]; cbn [stride]; lia.
Qed.
(** Under python -O the dtype check disappears and a floating output dtype is a division by zero in the library. *)
Theorem C38_optimized_refuted A nt pin din pout dout n scale zp rm thr : float_type dout -> 0 <= n < 2 ^ 64 -> - 2 ^ 63 <= zp < 2 ^ 63 ->
  quantize_ptr true A nt pin din pout dout n scale zp rm thr = Ret UB /\
  exists e, quantize_ptr false A nt pin din pout dout n scale zp rm thr = Raise e.
Proof.
  intros Hf Hn Hz. split.
  - unfold quantize_ptr, py_assert, cffi_size_t, cffi_int64. cbn [orb]. rewrite (proj2 (in_i64_iff zp)) by auto.
    replace ((0 <=? n) && (n <? 2 ^ 64)) with true by lia. f_equal.
    change (py_value dout) with (PIQUANT_DTYPE dout). apply C26_quantize_float_output_refuted; auto.
    unfold valid_dtype. destruct din; cbn; lia.
  - apply quantize_ptr_cases. intros (_ & Hq & _). destruct Hf as [->| ->], Hq as [|[|]]; discriminate.
Qed.

(** ** torch.  How PyTorch lays out memory (outside the repository): [storage_bytes] is the size of a contiguous tensor's storage; the
    sub-byte dtypes are padded to a whole byte at the end of every innermost row. *)
Definition elements_per_byte (t : torch_dtype) : nat := match t with T_quint2x4 => 4 | T_quint4x2 => 2 | _ => 1 end.
Definition item_bytes (t : torch_dtype) : nat := match t with T_float32 => 4 | T_bfloat16 => 2 | T_float16 => 2 | T_float64 => 8 | _ => 1 end.
Definition elements (shape : list nat) : nat := fold_right Nat.mul 1%nat shape.
Definition storage_bytes (t : torch_dtype) (shape : list nat) : nat :=
  match shape with
  | [] => item_bytes t
  | _ => elements (removelast shape) * ((last shape 0 * item_bytes t + (elements_per_byte t - 1)) / elements_per_byte t)
  end%nat.
(** A tensor that PyTorch can hand out: the pointer is null exactly when there is no element. *)
Definition torch_tensor (t : tensor) : Prop :=
  length (t_data t) = storage_bytes (t_dtype t) (t_shape t) /\ Forall is_byte (t_data t) /\ (t_ptr t = 0 <-> elements (t_shape t) = 0%nat).

Lemma elements_last shape : shape <> [] -> elements shape = (elements (removelast shape) * last shape 0)%nat.
Proof.
  induction shape as [|a l IH]; [congruence|]. intros _. destruct l as [|b l]; [cbn; lia|].
  change (removelast (a :: b :: l)) with (a :: removelast (b :: l)). change (last (a :: b :: l) 0%nat) with (last (b :: l) 0%nat).
  change (elements (a :: b :: l)) with (a * elements (b :: l))%nat. change (elements (a :: ?x)) with (a * elements x)%nat.
  rewrite IH by discriminate. cbn [elements fold_right]. fold (elements (removelast (b :: l))). lia.
Qed.
Lemma ceil_mul p q k : (0 < k)%nat -> ((p * q + (k - 1)) / k <= p * ((q + (k - 1)) / k))%nat.
Proof.
  intros Hk. pose proof (Nat.div_mod (q + (k - 1)) k) as D. pose proof (Nat.mod_upper_bound (q + (k - 1)) k).
  set (u := ((q + (k - 1)) / k)%nat) in *. clearbody u.
  assert (Q : (q <= k * u)%nat) by lia.
  assert (P : (p * q <= p * u * k)%nat).
  { replace (p * u * k)%nat with (p * (k * u))%nat by (rewrite <- Nat.mul_assoc, (Nat.mul_comm u k); reflexivity). apply Nat.mul_le_mono_l; auto. }
  transitivity ((p * u * k + (k - 1)) / k)%nat; [apply Nat.div_le_mono; lia|].
  rewrite Nat.div_add_l by lia. rewrite (Nat.div_small (k - 1) k) by lia. lia.
Qed.
(** torch.empty(shape, quantized dtype) is at least as large as what the library writes for that many elements. *)
Theorem C38_output_fits t d shape : torch_to_piquant_dtype t = Some d -> quant_type d -> (bytes_for d (elements shape) <= storage_bytes t shape)%nat.
Proof.
  intros Ht Hq. assert (T : (8 / bit_size d = elements_per_byte t /\ item_bytes t = 1)%nat).
  { destruct t; cbn in Ht; try discriminate; injection Ht as <-; destruct Hq as [|[|]]; try discriminate; auto. }
  destruct T as [T1 T2].
  assert (B : forall n, bytes_for d n = ((n + (elements_per_byte t - 1)) / elements_per_byte t)%nat).
  { intros n. rewrite <- T1. unfold bytes_for. destruct Hq as [->|[->| ->]]; cbn [bit_size]; change (8 / 2)%nat with 4%nat; change (8 / 4)%nat with 2%nat; change (8 / 8)%nat with 1%nat; cbn [Nat.sub]; lia. }
  assert (K : (0 < elements_per_byte t)%nat) by (destruct t; cbn; lia).
  destruct shape as [|a l].
  - rewrite B. cbn [elements fold_right storage_bytes]. rewrite T2. destruct t; cbn; lia.
  - rewrite B, elements_last by discriminate. unfold storage_bytes. rewrite T2, Nat.mul_1_r. apply ceil_mul. auto.
Qed.
(** Float tensors have exactly the size of the library's float span. *)
Lemma float_storage t d shape : torch_to_piquant_dtype t = Some d -> float_type d -> storage_bytes t shape = (elements shape * stride d)%nat.
Proof.
  intros Ht Hf. assert (T : (elements_per_byte t = 1 /\ item_bytes t = stride d)%nat).
  { destruct t; cbn in Ht; try discriminate; injection Ht as <-; destruct Hf as [|]; try discriminate; auto. }
  destruct T as [T1 T2]. destruct shape as [|a l]; [cbn; lia|]. rewrite elements_last by discriminate. unfold storage_bytes. rewrite T1, T2.
  rewrite Nat.add_0_r, Nat.div_1_r. lia.
Qed.

(** ** torch.quantize, end to end: for a float32 / bfloat16 tensor with at least one element the returned tensor holds the documented codes. *)
Theorem C38_torch_quantize A nt t out scale zp tq din dq thr r :
  torch_tensor t -> torch_tensor out -> t_dtype out = tq -> t_shape out = t_shape t -> (0 < elements (t_shape t))%nat ->
  torch_to_piquant_dtype (t_dtype t) = Some din -> float_type din -> torch_to_piquant_dtype tq = Some dq -> quant_type dq ->
  let n := elements (t_shape t) in
  sizes_ok (length (t_data t)) n nt -> good_scale (f32_of_f64 scale) -> Z.abs zp <= 2 ^ 22 ->
  (forall i, (i < n)%nat -> nearest_ok A (f32_of_f64 scale) (elem_at din (t_data t) i)) ->
  exists call, torch_quantize false A nt t scale zp tq "nearest" out thr = Ret call /\
    (returns (t_data t) (t_data out) call r ->
     exists o, r = Ok o /\ length o = length (t_data out) /\
       forall i, (i < n)%nat -> code_at dq o i = quant_code dq (val (f32_of_f64 scale)) zp (val (elem_at din (t_data t) i))).
Proof.
  intros Ht Ho Eo Es Hpos Hd Hf Hq' Hq n HS Hg Hz HI.
  assert (QT : in_set tq QUANT_TYPES = true) by (destruct tq; cbn in Hq'; try discriminate; try reflexivity; injection Hq' as <-; destruct Hq as [|[|]]; discriminate).
  unfold torch_quantize, py_assert. rewrite QT, Hd, Hq'. cbn [orb ROUND_MODES String.eqb Ascii.eqb Bool.eqb].
  change (t_numel t) with n.
  assert (LT : length (t_data t) = (n * stride din)%nat) by (destruct Ht as (-> & _); apply float_storage; auto).
  assert (LO : (bytes_for dq n <= length (t_data out))%nat) by (destruct Ho as (-> & _); rewrite Eo, Es; apply C38_output_fits; auto).
  assert (S4 : Z.of_nat (n * 4) < 2 ^ 64).
  { destruct HS as (_ & _ & _ & HS). rewrite LT in HS. destruct Hf as [->| ->]; cbn [stride] in HS; lia. }
  destruct (C38_quantize_ptr A nt (t_ptr t) din (t_ptr out) dq n scale zp RM_NEAREST thr S4) as [[_ E]|[E _]].
  2: { exfalso. apply E. clear - Ht Ho Hpos Es Hf Hq Hz S4. destruct Ht as (_ & _ & Ht), Ho as (_ & _ & Ho). rewrite Es in Ho.
       repeat split; auto; try lia. }
  eexists. split; [exact E|]. intros HR.
  assert (NE : numel din (n * stride din) = n) by (apply numel_exact; auto).
  rewrite LT in HS. apply quantize_bytes in HR; auto; try discriminate.
  - rewrite NE in HR. eexists. split; [exact HR|].
    assert (LB : length (map (packed_byte dq n (fun i => expected_code RM_NEAREST dq (f32_of_f64 scale) zp thr (elem_at din (t_data t) i))) (seq 0 (bytes_for dq n))) = bytes_for dq n)
      by (rewrite map_length, seq_length; auto).
    split; [rewrite app_length, LB, skipn_length; lia|]. intros i Hi.
    rewrite code_at_app; auto.
    2: { rewrite LB, codes_per_byte_q, bytes_for_per_byte by auto. destruct Hq as [->|[->| ->]]; cbn [per_byte]; lia. }
    rewrite <- (app_nil_r (map _ _)).
    rewrite (map_ext _ (byte_of dq (cut n (fun i => expected_code RM_NEAREST dq (f32_of_f64 scale) zp thr (elem_at din (t_data t) i))))) by (intros; symmetry; apply byte_of_packed; auto).
    rewrite code_at_byte_of; auto.
    + rewrite cut_lt by auto. reflexivity.
    + intros; apply expected_range; auto.
    + rewrite bytes_for_per_byte by auto. destruct Hq as [->|[->| ->]]; cbn [per_byte]; lia.
  - apply Ht.
  - rewrite LT. auto.
  - rewrite NE. auto.
  - rewrite NE. intros i Hi. split; auto; apply HI; auto.
Qed.

(** ** torch.dequantize to float32 with reduce_op 'set': every element is (code - zero point) * scale.  [extra] asks for the byte that uint2
    reads beyond the packed data (C09): the storage must be longer than the packed codes. *)
Definition overread_ok (dq : dtype) (n : nat) (m : mem) : Prop := dq = DT_UINT2 -> (n mod 4 = 0)%nat -> (bytes_for dq n < length m)%nat.
Lemma dequantize_call_torch A nt t out scale zp tq dq op o :
  torch_tensor t -> torch_tensor out -> t_dtype t = tq -> t_dtype out = T_float32 -> t_shape out = t_shape t -> (0 < elements (t_shape t))%nat ->
  torch_to_piquant_dtype tq = Some dq -> quant_type dq -> REDUCE_OPS op = Some o ->
  let n := elements (t_shape t) in
  sizes_ok (length (t_data out)) n nt -> Z.abs zp <= 2 ^ 30 -> overread_ok dq n (t_data t) ->
  length (t_data out) = (n * 4)%nat /\ numel DT_F32 (length (t_data out)) = n /\
  dq_buffers nt dq DT_F32 (t_data t) (bytes_for dq n) (t_data out) /\
  torch_dequantize false A nt t scale zp T_float32 op out =
    Ret (dequantize_call A nt (wrap_u64 (t_ptr out)) dq DT_F32 (f32_of_f64 scale) zp o (bytes_for dq n) (t_data out)).
Proof.
  intros Ht Ho Et Eo Es Hpos Hd Hq Hop n HS Hz Hx.
  assert (LO : length (t_data out) = (n * 4)%nat).
  { destruct Ho as (-> & _). rewrite Eo, Es. apply (float_storage T_float32 DT_F32); [reflexivity|left; reflexivity]. }
  assert (NE : numel DT_F32 (length (t_data out)) = n) by (rewrite LO; apply (numel_exact DT_F32); left; reflexivity).
  assert (LT : (bytes_for dq n <= length (t_data t))%nat) by (destruct Ht as (-> & _); rewrite Et; apply C38_output_fits; auto).
  split; auto. split; auto. split.
  - repeat split; auto; try (left; reflexivity); try apply Ht; rewrite ?NE; auto; apply HS.
  - unfold torch_dequantize. rewrite Et, Eo, Hd, Hop. cbn [in_set DEQUANT_TYPES existsb torch_dtype_eqb orb negb torch_to_piquant_dtype TORCH_DTYPE_MAP find fst snd option_map].
    change (t_numel t) with n.
    assert (S4 : Z.of_nat (n * 4) < 2 ^ 64) by (destruct HS as (_ & _ & _ & HS); lia).
    destruct (C38_dequantize_ptr A nt (t_ptr t) dq (t_ptr out) DT_F32 n scale zp o S4) as [[_ E]|[E _]].
    + rewrite E. unfold dequantize_call. cbn [stride]. rewrite <- LO. reflexivity.
    + exfalso. apply E. clear - Ht Ho Hpos Es Hq Hz S4. destruct Ht as (_ & _ & Ht), Ho as (_ & _ & Ho). rewrite Es in Ho.
      repeat split; auto; try lia. left; reflexivity.
Qed.
Theorem C38_torch_dequantize A nt t out scale zp tq dq r :
  torch_tensor t -> torch_tensor out -> t_dtype t = tq -> t_dtype out = T_float32 -> t_shape out = t_shape t -> (0 < elements (t_shape t))%nat ->
  torch_to_piquant_dtype tq = Some dq -> quant_type dq ->
  let n := elements (t_shape t) in
  sizes_ok (length (t_data out)) n nt -> Z.abs zp <= 2 ^ 30 -> overread_ok dq n (t_data t) ->
  exists call, torch_dequantize false A nt t scale zp T_float32 "set" out = Ret call /\
    (returns (t_data t) (t_data out) call r ->
     exists o, r = Ok o /\ length o = length (t_data out) /\
       forall i, (i < n)%nat -> f32_at o i = fmul (f32_of_Z (code_at dq (t_data t) i - zp)) (f32_of_f64 scale)).
Proof.
  intros Ht Ho Et Eo Es Hpos Hd Hq n HS Hz Hx.
  destruct (dequantize_call_torch A nt t out scale zp tq dq "set" RO_SET Ht Ho Et Eo Es Hpos Hd Hq eq_refl HS Hz Hx) as (LO & NE & HB & E).
  eexists. split; [exact E|]. intros HR. destruct (C07_dequantize_set_f32 _ _ _ _ _ _ _ _ _ _ HB Hz HR) as (o & -> & L & HC & _).
  exists o. split; auto. split; auto. intros i Hi. apply HC. fold n in NE. rewrite NE. auto.
Qed.
(** With reduce_op 'add' the call accumulates into the uninitialised tensor that torch.empty returned: each element of the result is the
    uninitialised element plus the dequantized value, so the result is not a function of the arguments. *)
Theorem C38_torch_add_uninitialised A nt t out scale zp tq dq r :
  torch_tensor t -> torch_tensor out -> t_dtype t = tq -> t_dtype out = T_float32 -> t_shape out = t_shape t -> (0 < elements (t_shape t))%nat ->
  torch_to_piquant_dtype tq = Some dq -> quant_type dq -> finite (f32_of_f64 scale) ->
  let n := elements (t_shape t) in
  sizes_ok (length (t_data out)) n nt -> Z.abs zp <= 2 ^ 30 -> overread_ok dq n (t_data t) ->
  exists call, torch_dequantize false A nt t scale zp T_float32 "add" out = Ret call /\
    (returns (t_data t) (t_data out) call r ->
     exists o, r = Ok o /\ forall i, (i < n)%nat -> (dq = DT_UINT2 -> (i < 4 * (n / 4))%nat) ->
       f32_at o i = fadd (f32_at (t_data out) i) (fmul (f32_of_Z (code_at dq (t_data t) i - zp)) (f32_of_f64 scale))).
Proof.
  intros Ht Ho Et Eo Es Hpos Hd Hq Hsc n HS Hz Hx.
  destruct (dequantize_call_torch A nt t out scale zp tq dq "add" RO_ADD Ht Ho Et Eo Es Hpos Hd Hq eq_refl HS Hz Hx) as (LO & NE & HB & E).
  eexists. split; [exact E|]. intros HR. destruct (C08_dequantize_add_f32 _ _ _ _ _ _ _ _ _ _ HB Hz Hsc HR) as (o & -> & L & HC & _).
  exists o. split; auto. fold n in NE. rewrite NE in HC. auto.
Qed.

(** Tensors without elements are refused (AssertionError: null pointer) instead of giving an empty tensor. *)
Theorem C38_empty_tensor_refuted A nt t out scale zp tq din dq thr :
  torch_tensor t -> elements (t_shape t) = 0%nat ->
  torch_to_piquant_dtype (t_dtype t) = Some din -> float_type din -> torch_to_piquant_dtype tq = Some dq -> quant_type dq ->
  torch_quantize false A nt t scale zp tq "nearest" out thr = Raise AssertionError.
Proof.
  intros (_ & _ & Ht) H0 Hd Hf Hq' Hq. apply Ht in H0.
  assert (QT : in_set tq QUANT_TYPES = true) by (destruct tq; cbn in Hq'; try discriminate; try reflexivity; injection Hq' as <-; destruct Hq as [|[|]]; discriminate).
  unfold torch_quantize, py_assert. rewrite QT, Hd, Hq'. cbn [orb ROUND_MODES String.eqb Ascii.eqb Bool.eqb].
  unfold quantize_ptr, py_assert. rewrite H0. cbn [orb Z.eqb negb].
  destruct (py_is_dequantized din); auto. destruct (py_is_quantized dq); auto.
Qed.
(** quantize checks the tensor's dtype: anything but float32 and bfloat16 raises. *)
Theorem C38_quantize_checks_dtype A nt t out scale zp tq mode thr :
  t_dtype t <> T_float32 -> t_dtype t <> T_bfloat16 -> exists e, torch_quantize false A nt t scale zp tq mode out thr = Raise e.
Proof.
  intros H1 H2. unfold torch_quantize, py_assert. cbn [orb]. destruct (in_set tq QUANT_TYPES); [|eauto].
  destruct (t_dtype t) eqn:E; try congruence; cbn; destruct (torch_to_piquant_dtype tq); eauto; destruct (ROUND_MODES mode); eauto.
Qed.
(** compute_quant_params does not: every tensor that is not bfloat16 is read as float32.  For a float16 tensor that is a read past the end
    of its storage (here: one element, every content, every kernel set). *)
Theorem C38_params_float16_refuted a t tq dq : torch_tensor t -> t_dtype t = T_float16 -> t_shape t = [1%nat] ->
  torch_to_piquant_dtype tq = Some dq -> quant_type dq ->
  torch_compute_quant_params false a t tq [(0, 1)%nat] = Ret UB.
Proof.
  intros (L & _ & Hp) Et Es Hq' Hq.
  assert (QT : in_set tq QUANT_TYPES = true) by (destruct tq; cbn in Hq'; try discriminate; try reflexivity; injection Hq' as <-; destruct Hq as [|[|]]; discriminate).
  unfold torch_compute_quant_params, py_assert. rewrite QT, Hq', Et. cbn [orb torch_dtype_eqb]. unfold compute_quant_params_ptr, py_assert.
  rewrite (proj2 (q_quant dq)) by auto. cbn [orb]. rewrite Es in *. cbn in Hp. destruct (Z.eqb_spec (t_ptr t) 0) as [Z|_]; [apply Hp in Z; discriminate|].
  cbn [negb]. unfold t_numel. rewrite Es. cbn [fold_right]. change (Z.of_nat (1 * 1)) with 1. unfold cffi_size_t. cbn [Z.leb Z.ltb Z.compare Pos.compare Pos.compare_cont andb].
  f_equal. change (py_value dq) with (PIQUANT_DTYPE dq). rewrite C27_compute_params.
  rewrite Et in L. cbn in L. destruct (t_data t) as [|b0 [|b1 [|b2 m]]]; try discriminate.
  unfold compute_quant_config_from_data, compute_quant_config. cbn [map sequence block_range].
  destruct a; reflexivity.
Qed.
(** For float32 and bfloat16 tensors it returns what the C++ function computes from the tensor's elements. *)
Theorem C38_torch_params a t tq d dq blocks : torch_tensor t -> (0 < elements (t_shape t))%nat -> Z.of_nat (elements (t_shape t)) < 2 ^ 64 ->
  torch_to_piquant_dtype (t_dtype t) = Some d -> float_type d -> torch_to_piquant_dtype tq = Some dq -> quant_type dq ->
  length (t_data t) = (elements (t_shape t) * stride d)%nat /\
  torch_compute_quant_params false a t tq blocks = Ret (compute_quant_config_from_data a d dq (t_data t) blocks).
Proof.
  intros (L & _ & Hp) Hpos Hb Hd Hf Hq' Hq. split; [rewrite L; apply float_storage; auto|].
  assert (QT : in_set tq QUANT_TYPES = true) by (destruct tq; cbn in Hq'; try discriminate; try reflexivity; injection Hq' as <-; destruct Hq as [|[|]]; discriminate).
  unfold torch_compute_quant_params, compute_quant_params_ptr, py_assert. rewrite QT, Hq'. rewrite (proj2 (q_quant dq)) by auto. cbn [orb].
  destruct (Z.eqb_spec (t_ptr t) 0) as [Z|_]; [apply Hp in Z; lia|]. cbn [negb]. unfold cffi_size_t. change (t_numel t) with (elements (t_shape t)).
  replace ((0 <=? Z.of_nat (elements (t_shape t))) && (Z.of_nat (elements (t_shape t)) <? 2 ^ 64)) with true by lia.
  change (py_value dq) with (PIQUANT_DTYPE dq). rewrite !C27_compute_params.
  destruct (t_dtype t); cbn in Hd; try discriminate; injection Hd as <-; try reflexivity; destruct Hf; discriminate.
Qed.
(** The hypotheses are met by ordinary tensors: a 2x3 quint2x4 tensor (2 bytes: one per row) and a 2x3 float32 tensor of zeros. *)
Example C38_witness :
  torch_tensor (mk_tensor T_quint2x4 [2; 3]%nat 4096 [27; 9]) /\ torch_tensor (mk_tensor T_float32 [2; 3]%nat 8192 (repeat 0 24)) /\
  overread_ok DT_UINT2 6 [27; 9] /\ sizes_ok 24 6 4.
Proof.
  repeat split; cbn [t_data t_ptr t_dtype t_shape]; try (cbn; discriminate); try (intros; cbn in *; discriminate); try lia.
  - repeat constructor; unfold is_byte; lia.
  - cbn [repeat]. repeat constructor; unfold is_byte; lia.
Qed.
