(** Api.v -- the public entry points reduced to the job lists of QuantizeFacts.v / DequantizeFacts.v. *)
From Coq Require Import ZArith List Lia Bool Arith ZifyBool ZifyNat Permutation.
From Verif Require Import Base Floats Simd Dtypes Spec ApiSpec QuantKernels DequantKernels ExecFacts QuantFacts QuantKernelFacts
  QuantGenericFacts DequantFacts DequantGenericFacts Context ContextFacts Footprint QuantizeFacts DequantizeFacts.
Import ListNotations.

Ltac Zify.zify_post_hook ::= Z.div_mod_to_equations.

Lemma is_quant_q d : quant_type d -> is_quant d = true.
Proof. intros [->|[->| ->]]; reflexivity. Qed.
Lemma is_quant_fp d : float_type d -> is_quant d = false.
Proof. intros [->| ->]; reflexivity. Qed.
Lemma codes_per_byte_q d : quant_type d -> codes_per_byte d = per_byte d.
Proof. intros [->|[->| ->]]; reflexivity. Qed.

Lemma to_i64_id z : (0 <= z < 2 ^ 63)%Z -> to_i64 z = z.
Proof. intros H. unfold to_i64. change (2 ^ 63)%Z with 9223372036854775808%Z in H. lia. Qed.
Lemma wrap_u64_id z : (0 <= z < 2 ^ 64)%Z -> wrap_u64 z = z.
Proof. intros H. unfold wrap_u64. change (2 ^ 64)%Z with 18446744073709551616%Z in H. lia. Qed.

Lemma packed_numel_ok n d : quant_type d -> (Z.of_nat n < 2 ^ 62)%Z -> packed_numel (Z.of_nat n) d = Ok (Z.of_nat (bytes_for d n)).
Proof.
  intros Hd Hn. change (2 ^ 62)%Z with 4611686018427387904%Z in Hn. unfold packed_numel, bytes_for.
  destruct Hd as [->|[->| ->]]; cbn [bit_size].
  - change (8 / Z.of_nat 2)%Z with 4%Z. cbn [Z.eqb]. rewrite wrap_u64_id by (change (2 ^ 64)%Z with 18446744073709551616%Z; lia). f_equal. lia.
  - change (8 / Z.of_nat 4)%Z with 2%Z. cbn [Z.eqb]. rewrite wrap_u64_id by (change (2 ^ 64)%Z with 18446744073709551616%Z; lia). f_equal. lia.
  - change (8 / Z.of_nat 8)%Z with 1%Z. cbn [Z.eqb]. rewrite wrap_u64_id by (change (2 ^ 64)%Z with 18446744073709551616%Z; lia). f_equal. lia.
Qed.

Definition thr_of (rm : round_mode_t) (thr : f32) : f32 := match rm with RM_NEAREST => f_zero | RM_STOCHASTIC => thr end.

Lemma quantize_jobs A nt oaddr in_size din out_size dout scale zp rm thr :
  float_type din -> quant_type dout -> out_size = bytes_for dout (numel din in_size) -> sizes_ok in_size (numel din in_size) nt ->
  quantize A nt oaddr (Z.of_nat in_size) din (Z.of_nat out_size) dout scale zp rm thr =
  Ok (map (q_job A din dout rm oaddr (numel din in_size) nt scale (thr_of rm thr) zp) (seq 0 nt)).
Proof.
  intros Hfp Hq Ho (S1 & S2 & S3 & S4). unfold quantize.
  rewrite is_quant_fp, is_quant_q by auto. cbn [assert negb bind].
  set (n := numel din in_size) in *.
  assert (Hst : stride din = 4 \/ stride din = 2) by (clear -Hfp; destruct Hfp as [->| ->]; cbn; auto).
  assert (Hn : stride din * n <= in_size) by (unfold n, numel; apply Nat.mul_div_le; lia).
  assert (Hn' : (Z.of_nat in_size / Z.of_nat (stride din) = Z.of_nat n)%Z) by (unfold n, numel; rewrite Nat2Z.inj_div; reflexivity).
  rewrite Hn'. change (2 ^ 61)%Z with 2305843009213693952%Z in *. change (2 ^ 63)%Z with 9223372036854775808%Z in *.
  assert (Hexp : (if bit_size dout =? 8 then Ok (wrap_u64 (Z.of_nat n * Z.of_nat (stride dout)))
                  else p <- packed_numel (Z.of_nat n) dout ;; Ok (wrap_u64 (p * Z.of_nat (stride dout)))) = Ok (Z.of_nat out_size)).
  { subst out_size. destruct Hq as [->|[->| ->]]; cbn [bit_size Nat.eqb stride].
    - rewrite packed_numel_ok by (try (left; reflexivity); lia). cbn [bind]. rewrite wrap_u64_id; [f_equal; lia|].
      unfold bytes_for. cbn [bit_size]. change (2 ^ 64)%Z with 18446744073709551616%Z. lia.
    - rewrite packed_numel_ok by (try (right; left; reflexivity); lia). cbn [bind]. rewrite wrap_u64_id; [f_equal; lia|].
      unfold bytes_for. cbn [bit_size]. change (2 ^ 64)%Z with 18446744073709551616%Z. lia.
    - rewrite wrap_u64_id by (change (2 ^ 64)%Z with 18446744073709551616%Z; lia). unfold bytes_for. cbn [bit_size]. f_equal. lia. }
  rewrite Hexp. cbn [bind]. rewrite Z.eqb_refl. cbn [assert bind].
  rewrite to_i64_id by (change (2 ^ 63)%Z with 9223372036854775808%Z; lia).
  unfold run_command. 
  assert (HD : (match rm with
            | RM_STOCHASTIC => mk_desc CMD_QUANT (Z.of_nat n) scale zp din dout rm RO_SET thr
            | RM_NEAREST => mk_desc CMD_QUANT (Z.of_nat n) scale zp din dout rm RO_SET f_zero
            end) = mk_desc CMD_QUANT (Z.of_nat n) scale zp din dout rm RO_SET (thr_of rm thr)) by (destruct rm; reflexivity).
  cbn [d_rounding d_type d_numel d_scale d_zp d_in d_out d_reducing]. 
  replace (match rm with RM_NEAREST => mk_desc CMD_QUANT (Z.of_nat n) scale zp din dout rm RO_SET f_zero
     | RM_STOCHASTIC => mk_desc CMD_QUANT (Z.of_nat n) scale zp din dout rm RO_SET thr end)
   with (mk_desc CMD_QUANT (Z.of_nat n) scale zp din dout rm RO_SET (thr_of rm thr)) by (destruct rm; reflexivity).
  apply q_jobs; auto; unfold esize; lia.
Qed.

Lemma dequantize_jobs A nt oaddr in_size din out_size dout scale zp op :
  quant_type din -> float_type dout -> in_size = bytes_for din (numel dout out_size) -> sizes_ok out_size (numel dout out_size) nt ->
  dequantize A nt oaddr (Z.of_nat in_size) din (Z.of_nat out_size) dout scale zp op =
  Ok (map (d_job A din dout op (numel dout out_size) nt scale zp) (seq 0 nt)).
Proof.
  intros Hq Hfp Ho (S1 & S2 & S3 & S4). unfold dequantize.
  rewrite (is_quant_fp dout), (is_quant_q din) by auto. cbn [assert negb bind].
  set (n := numel dout out_size) in *.
  assert (Hst : stride dout = 4 \/ stride dout = 2) by (clear -Hfp; destruct Hfp as [->| ->]; cbn; auto).
  assert (Hn : stride dout * n <= out_size) by (unfold n, numel; apply Nat.mul_div_le; lia).
  assert (Hn' : (Z.of_nat out_size / Z.of_nat (stride dout) = Z.of_nat n)%Z) by (unfold n, numel; rewrite Nat2Z.inj_div; reflexivity).
  rewrite Hn'. change (2 ^ 61)%Z with 2305843009213693952%Z in *. change (2 ^ 63)%Z with 9223372036854775808%Z in *.
  rewrite packed_numel_ok by (auto; change (2 ^ 62)%Z with 4611686018427387904%Z; lia). cbn [bind].
  assert (Hb : bytes_for din n <= n) by (unfold bytes_for; destruct Hq as [->|[->| ->]]; cbn [bit_size]; lia).
  assert (Hsd : stride din = 1) by (destruct Hq as [->|[->| ->]]; reflexivity). rewrite Hsd.
  rewrite wrap_u64_id by (change (2 ^ 64)%Z with 18446744073709551616%Z; lia).
  rewrite Ho. rewrite Z.mul_1_r, Z.eqb_refl. cbn [assert bind].
  rewrite to_i64_id by (change (2 ^ 63)%Z with 9223372036854775808%Z; lia).
  unfold run_command. cbn [d_rounding].
  apply d_jobs; auto; unfold esize; lia.
Qed.

Lemma fused_jobs A nt oaddr size dt dq scale zp rm op thr :
  float_type dt -> quant_type dq -> sizes_ok size (numel dt size) nt ->
  quantize_dequantize_fused A nt oaddr (Z.of_nat size) dt (Z.of_nat size) dq scale zp rm op thr =
  Ok (map (f_job dt dq rm op (numel dt size) nt scale (thr_of rm thr) zp) (seq 0 nt)).
Proof.
  intros Hfp Hq (S1 & S2 & S3 & S4). unfold quantize_dequantize_fused.
  rewrite is_quant_fp, is_quant_q by auto. cbn [assert negb bind].
  set (n := numel dt size) in *.
  assert (Hst : stride dt = 4 \/ stride dt = 2) by (clear -Hfp; destruct Hfp as [->| ->]; cbn; auto).
  assert (Hn : stride dt * n <= size) by (unfold n, numel; apply Nat.mul_div_le; lia).
  assert (Hn' : (Z.of_nat size / Z.of_nat (stride dt) = Z.of_nat n)%Z) by (unfold n, numel; rewrite Nat2Z.inj_div; reflexivity).
  rewrite Hn'. change (2 ^ 61)%Z with 2305843009213693952%Z in *. change (2 ^ 63)%Z with 9223372036854775808%Z in *.
  rewrite Z.eqb_refl. cbn [assert bind].
  rewrite to_i64_id by (change (2 ^ 63)%Z with 9223372036854775808%Z; lia).
  unfold run_command. cbn [d_rounding d_type d_numel d_scale d_zp d_in d_out d_reducing]. 
  replace (match rm with RM_NEAREST => mk_desc CMD_QUANT_DEQUANT (Z.of_nat n) scale zp dt dq rm op f_zero
     | RM_STOCHASTIC => mk_desc CMD_QUANT_DEQUANT (Z.of_nat n) scale zp dt dq rm op thr end)
   with (mk_desc CMD_QUANT_DEQUANT (Z.of_nat n) scale zp dt dq rm op (thr_of rm thr)) by (destruct rm; reflexivity).
  apply f_jobs; auto; unfold esize; lia.
Qed.

Lemma numel_le d size : float_type d -> esize d * numel d size <= size.
Proof. intros Hd. unfold numel, esize. apply Nat.mul_div_le. destruct Hd as [->| ->]; cbn; lia. Qed.

(** ** Results *)
Lemma returns_jobs inm outm jobs r : returns inm outm (Ok jobs) r -> exists tr, interleave jobs tr /\ r = run_trace inm tr outm.
Proof. intros H. inversion H; subst. eauto. Qed.
Lemma returns_total inm outm c : exists r, returns inm outm c r.
Proof.
  destruct c as [jobs| |]; [|eexists; constructor|eexists; constructor].
  destruct (interleave_exists jobs) as [tr H]. eexists. econstructor. exact H.
Qed.

(** the byte contents, for codes that may depend on whether an element was handled by a vector iteration *)
Lemma quantize_core_any A nt oaddr in_size din out_size dout scale zp rm thr inm outm C r :
  float_type din -> quant_type dout -> out_size = bytes_for dout (numel din in_size) -> sizes_ok in_size (numel din in_size) nt ->
  Forall is_byte inm -> in_size <= length inm -> out_size <= length outm ->
  let n := numel din in_size in
  let b := part_bound (per_byte dout) n nt in
  (forall t i, t < nt -> b t <= i < b (S t) ->
    q_vec A din dout rm (oaddr + Z.of_nat (b t / per_byte dout)) (b (S t) - b t) (i - b t) = false ->
    q_scalar din dout rm (thr_of rm thr) (fdiv f_one scale) zp (elem_at din inm i) = Ok (C i)) ->
  (forall t i, t < nt -> b t <= i < b (S t) ->
    q_vec A din dout rm (oaddr + Z.of_nat (b t / per_byte dout)) (b (S t) - b t) (i - b t) = false ->
    exists z, q_scalar din dout rm (thr_of rm thr) (fdiv f_one scale) zp f_zero = Ok z) ->
  (forall t i, t < nt -> b t <= i < b (S t) ->
    q_vec A din dout rm (oaddr + Z.of_nat (b t / per_byte dout)) (b (S t) - b t) (i - b t) = true ->
    lane A (code_max dout) (fdiv f_one scale) (wrap32 zp) (elem_at din inm i) = C i) ->
  returns inm outm (quantize A nt oaddr (Z.of_nat in_size) din (Z.of_nat out_size) dout scale zp rm thr) r ->
  r = Ok (map (byte_of dout (cut (numel din in_size) C)) (seq 0 out_size) ++ skipn out_size outm).
Proof.
  intros Hfp Hq Ho HS Hb Hi Hou n b HQ HZ HV HR. rewrite quantize_jobs in HR by auto.
  apply returns_jobs in HR. destruct HR as (tr & HI & ->). pose proof (numel_le din in_size Hfp). destruct HS as (S1 & _). subst out_size.
  eapply q_run; eauto; fold n; lia.
Qed.

Lemma quantize_core_pos A nt oaddr in_size din out_size dout scale zp rm thr inm outm C r :
  float_type din -> quant_type dout -> out_size = bytes_for dout (numel din in_size) -> sizes_ok in_size (numel din in_size) nt ->
  Forall is_byte inm -> in_size <= length inm -> out_size <= length outm ->
  let n := numel din in_size in
  let b := part_bound (per_byte dout) n nt in
  (forall t i, t < nt -> b t <= i < b (S t) ->
    q_vec A din dout rm (oaddr + Z.of_nat (b t / per_byte dout)) (b (S t) - b t) (i - b t) = false ->
    q_scalar din dout rm (thr_of rm thr) (fdiv f_one scale) zp (elem_at din inm i) = Ok (C i)) ->
  (exists z, q_scalar din dout rm (thr_of rm thr) (fdiv f_one scale) zp f_zero = Ok z) ->
  (forall t i, t < nt -> b t <= i < b (S t) ->
    q_vec A din dout rm (oaddr + Z.of_nat (b t / per_byte dout)) (b (S t) - b t) (i - b t) = true ->
    lane A (code_max dout) (fdiv f_one scale) (wrap32 zp) (elem_at din inm i) = C i) ->
  returns inm outm (quantize A nt oaddr (Z.of_nat in_size) din (Z.of_nat out_size) dout scale zp rm thr) r ->
  r = Ok (map (byte_of dout (cut (numel din in_size) C)) (seq 0 out_size) ++ skipn out_size outm).
Proof.
  intros Hfp Hq Ho HS Hb Hi Hou n b HQ HZ HV HR. eapply quantize_core_any; eauto.
Qed.

Lemma quantize_core A nt oaddr in_size din out_size dout scale zp rm thr inm outm C r :
  float_type din -> quant_type dout -> out_size = bytes_for dout (numel din in_size) -> sizes_ok in_size (numel din in_size) nt ->
  Forall is_byte inm -> in_size <= length inm -> out_size <= length outm ->
  (forall i, i < numel din in_size -> q_scalar din dout rm (thr_of rm thr) (fdiv f_one scale) zp (elem_at din inm i) = Ok (C i)) ->
  (exists z, q_scalar din dout rm (thr_of rm thr) (fdiv f_one scale) zp f_zero = Ok z) ->
  (has_vec A din dout rm = true -> forall i, i < numel din in_size -> lane A (code_max dout) (fdiv f_one scale) (wrap32 zp) (elem_at din inm i) = C i) ->
  returns inm outm (quantize A nt oaddr (Z.of_nat in_size) din (Z.of_nat out_size) dout scale zp rm thr) r ->
  r = Ok (map (byte_of dout (cut (numel din in_size) C)) (seq 0 out_size) ++ skipn out_size outm).
Proof.
  intros Hfp Hq Ho HS Hb Hi Hou HQ HZ HV HR.
  assert (Hnt : nt > 0) by (destruct HS; lia).
  assert (Hpe : per_byte dout > 0) by (clear -Hq; destruct Hq as [->|[->| ->]]; cbn; lia).
  assert (L : forall t, t < nt -> part_bound (per_byte dout) (numel din in_size) nt (S t) <= numel din in_size)
    by (intros t Ht; apply part_le; auto).
  eapply quantize_core_pos in HR; eauto.
  - intros t i Ht Hti _. apply HQ. specialize (L t Ht). lia.
  - intros t i Ht Hti E. apply HV; [eapply q_vec_has; eauto|]. specialize (L t Ht). lia.
Qed.

Lemma dequantize_core A nt oaddr in_size din out_size dout scale zp op inm outm E r :
  quant_type din -> float_type dout -> in_size = bytes_for din (numel dout out_size) -> sizes_ok out_size (numel dout out_size) nt ->
  Forall is_byte inm -> in_size <= length inm -> out_size <= length outm ->
  (din = DT_UINT2 -> dout = DT_F32 -> numel dout out_size > 0 -> numel dout out_size / 4 < length inm) ->
  (forall i, i < numel dout out_size -> length (E i) = esize dout) ->
  let n := numel dout out_size in
  let b := part_bound (per_byte din) n nt in
  (forall t i, t < nt -> b t <= i < b (S t) -> i - b t < vec_end (dq_block A din dout) (b (S t) - b t) ->
    E i = dq_el_vec A din dout op scale zp (code_at din inm i) (slice (esize dout * i) (esize dout) outm)) ->
  (forall t i, t < nt -> b t <= i < b (S t) -> vec_end (dq_block A din dout) (b (S t) - b t) <= i - b t ->
    step_put (dq_scalar din dout scale zp) (put dout (dq_op din dout op n i)) (code_at din inm i) (slice (esize dout * i) (esize dout) outm) = Ok (E i)) ->
  returns inm outm (dequantize A nt oaddr (Z.of_nat in_size) din (Z.of_nat out_size) dout scale zp op) r ->
  r = Ok (map (byteE (esize dout) E) (seq 0 (esize dout * n)) ++ skipn (esize dout * n) outm).
Proof.
  intros Hq Hfp Ho HS Hb Hi Hou Hx HL n b HV HQ HR. rewrite dequantize_jobs in HR by auto.
  apply returns_jobs in HR. destruct HR as (tr & HI & ->). pose proof (numel_le dout out_size Hfp). destruct HS as (S1 & _). subst in_size.
  eapply d_run; eauto; fold n; lia.
Qed.

Lemma fused_core A nt oaddr size dt dq scale zp rm op thr inm outm E r :
  float_type dt -> quant_type dq -> sizes_ok size (numel dt size) nt ->
  size <= length inm -> size <= length outm ->
  let n := numel dt size in
  (forall i, i < n -> length (E i) = esize dt) ->
  (forall i, i < n -> requant_elem dt dq rm op scale (thr_of rm thr) zp (slice (esize dt * i) (esize dt) inm) (slice (esize dt * i) (esize dt) outm) = Ok (E i)) ->
  returns inm outm (quantize_dequantize_fused A nt oaddr (Z.of_nat size) dt (Z.of_nat size) dq scale zp rm op thr) r ->
  r = Ok (map (byteE (esize dt) E) (seq 0 (esize dt * n)) ++ skipn (esize dt * n) outm).
Proof.
  intros Hfp Hq HS Hi Hou n HL HE HR. rewrite fused_jobs in HR by auto.
  apply returns_jobs in HR. destruct HR as (tr & HI & ->). pose proof (numel_le dt size Hfp). destruct HS as (S1 & _).
  eapply f_run; eauto; fold n; lia.
Qed.

(** elements of the result of a dequantization *)
Lemma slice_byteE e E n rest i : e > 0 -> i < n -> (forall j, j < n -> length (E j) = e) ->
  slice (e * i) e (map (byteE e E) (seq 0 (e * n)) ++ rest) = E i.
Proof.
  intros He Hi HL. apply list_ext.
  - rewrite slice_length; [symmetry; auto|]. rewrite app_length, map_length, seq_length. nia.
  - rewrite slice_length by (rewrite app_length, map_length, seq_length; nia). intros k Hk. rewrite nth_slice by auto.
    rewrite app_nth1 by (rewrite map_length, seq_length; nia). rewrite nth_map_seq by nia. cbn [Nat.add].
    unfold byteE. replace (e * i + k) with (k + i * e) by lia. rewrite Nat.mod_add, Nat.div_add, Nat.mod_small, Nat.div_small by lia. reflexivity.
Qed.
