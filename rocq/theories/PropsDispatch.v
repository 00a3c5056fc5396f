(** PropsDispatch.v -- C25 (argument validation) and C33 (kernel tables). *)
From Coq Require Import ZArith List Lia Bool Arith ZifyBool ZifyNat.
From Verif Require Import Base Floats Simd Dtypes Spec ApiSpec QuantKernels DequantKernels ExecFacts QuantFacts QuantKernelFacts
  QuantGenericFacts DequantFacts DequantGenericFacts Context ContextFacts Footprint QuantizeFacts DequantizeFacts Api NoAbort.
Import ListNotations.

(** ** C33: every valid request selects the kernel instance for exactly its types, rounding mode and reduce operation; every other request
    aborts; no request indexes outside a table. *)
Theorem C33_kernel_tables (ty : command_type) n scale zp (din dout : dtype) (rm : round_mode_t) (op : reduce_op) thr :
  let k := select_kernel (mk_desc ty n scale zp din dout rm op thr) in
  match ty with
  | CMD_QUANT => (float_type din /\ quant_type dout /\ k = Ok (K_quant din dout rm)) \/ (~ (float_type din /\ quant_type dout) /\ k = Abort)
  | CMD_DEQUANT => (quant_type din /\ float_type dout /\ k = Ok (K_dequant din dout op)) \/ (~ (quant_type din /\ float_type dout) /\ k = Abort)
  | CMD_QUANT_DEQUANT =>
      (float_type din /\ quant_type dout /\ k = Ok (K_requant din dout rm op)) \/ (~ (float_type din /\ quant_type dout) /\ k = Abort)
  end.
Proof.
  unfold float_type, quant_type.
  destruct ty, din, dout; try (left; destruct rm, op; repeat split; auto; fail); right; split; try reflexivity;
    intros [H1 H2]; repeat destruct H1 as [H1|H1]; repeat destruct H2 as [H2|H2]; discriminate.
Qed.

(** ** C25 *)
Definition quantize_args_ok (in_size : nat) (din : dtype) (out_size : nat) (dout : dtype) : Prop :=
  float_type din /\ quant_type dout /\ out_size = bytes_for dout (numel din in_size).
Definition dequantize_args_ok (in_size : nat) (din : dtype) (out_size : nat) (dout : dtype) : Prop :=
  quant_type din /\ float_type dout /\ in_size = bytes_for din (numel dout out_size).
Definition fused_args_ok (in_size : nat) (dt : dtype) (out_size : nat) (dq : dtype) : Prop :=
  float_type dt /\ quant_type dq /\ in_size = out_size.

Lemma not_fp_quant d : ~ float_type d -> is_quant d = true.
Proof. unfold float_type. destruct d; try reflexivity; intros H; exfalso; apply H; auto. Qed.
Lemma not_q_quant d : ~ quant_type d -> is_quant d = false.
Proof. unfold quant_type. destruct d; try reflexivity; intros H; exfalso; apply H; auto. Qed.
Lemma fp_dec d : {float_type d} + {~ float_type d}.
Proof. unfold float_type. destruct d; (left; auto; fail) || (right; intros [H|H]; discriminate). Qed.
Lemma q_dec d : {quant_type d} + {~ quant_type d}.
Proof. unfold quant_type. destruct d; (left; auto; fail) || (right; intros [H|[H|H]]; discriminate). Qed.

Ltac Zify.zify_post_hook ::= Z.div_mod_to_equations.

Lemma quantize_abort A nt oaddr in_size din out_size dout scale zp rm thr :
  (Z.of_nat in_size < 2 ^ 61)%Z -> ~ quantize_args_ok in_size din out_size dout ->
  quantize A nt oaddr (Z.of_nat in_size) din (Z.of_nat out_size) dout scale zp rm thr = Abort.
Proof.
  intros HS HN. change (2 ^ 61)%Z with 2305843009213693952%Z in HS. unfold quantize.
  destruct (fp_dec din) as [Hfp|Hfp]; [|rewrite not_fp_quant by auto; reflexivity].
  destruct (q_dec dout) as [Hq|Hq]; [|rewrite is_quant_fp, not_q_quant by auto; reflexivity].
  rewrite is_quant_fp, is_quant_q by auto. cbn [assert negb bind].
  set (n := numel din in_size) in *.
  assert (Hst : stride din = 4 \/ stride din = 2) by (clear -Hfp; destruct Hfp as [->| ->]; cbn; auto).
  assert (Hn : stride din * n <= in_size) by (unfold n, numel; apply Nat.mul_div_le; lia).
  assert (Hn' : (Z.of_nat in_size / Z.of_nat (stride din) = Z.of_nat n)%Z) by (unfold n, numel; rewrite Nat2Z.inj_div; reflexivity).
  assert (HO : out_size <> bytes_for dout n) by (intros E; apply HN; split; auto).
  rewrite Hn'. clear HN Hn'.
  assert (Hexp : (if bit_size dout =? 8 then Ok (wrap_u64 (Z.of_nat n * Z.of_nat (stride dout)))
                  else p <- packed_numel (Z.of_nat n) dout ;; Ok (wrap_u64 (p * Z.of_nat (stride dout)))) = Ok (Z.of_nat (bytes_for dout n))).
  { destruct Hq as [->|[->| ->]]; cbn [bit_size Nat.eqb stride].
    - rewrite packed_numel_ok by (try (left; reflexivity); lia). cbn [bind]. rewrite wrap_u64_id; [f_equal; lia|].
      unfold bytes_for. cbn [bit_size]. change (2 ^ 64)%Z with 18446744073709551616%Z. lia.
    - rewrite packed_numel_ok by (try (right; left; reflexivity); lia). cbn [bind]. rewrite wrap_u64_id; [f_equal; lia|].
      unfold bytes_for. cbn [bit_size]. change (2 ^ 64)%Z with 18446744073709551616%Z. lia.
    - rewrite wrap_u64_id by (change (2 ^ 64)%Z with 18446744073709551616%Z; lia). unfold bytes_for. cbn [bit_size]. f_equal. lia. }
  rewrite Hexp. cbn [bind]. rewrite (proj2 (Z.eqb_neq _ _)) by lia. reflexivity.
Qed.
Lemma dequantize_abort A nt oaddr in_size din out_size dout scale zp op :
  (Z.of_nat out_size < 2 ^ 61)%Z -> ~ dequantize_args_ok in_size din out_size dout ->
  dequantize A nt oaddr (Z.of_nat in_size) din (Z.of_nat out_size) dout scale zp op = Abort.
Proof.
  intros HS HN. change (2 ^ 61)%Z with 2305843009213693952%Z in HS. unfold dequantize.
  destruct (q_dec din) as [Hq|Hq]; [|rewrite not_q_quant by auto; reflexivity].
  destruct (fp_dec dout) as [Hfp|Hfp]; [|rewrite (is_quant_q din), not_fp_quant by auto; reflexivity].
  rewrite (is_quant_fp dout), (is_quant_q din) by auto. cbn [assert negb bind].
  set (n := numel dout out_size) in *.
  assert (Hst : stride dout = 4 \/ stride dout = 2) by (clear -Hfp; destruct Hfp as [->| ->]; cbn; auto).
  assert (Hn : stride dout * n <= out_size) by (unfold n, numel; apply Nat.mul_div_le; lia).
  assert (Hn' : (Z.of_nat out_size / Z.of_nat (stride dout) = Z.of_nat n)%Z) by (unfold n, numel; rewrite Nat2Z.inj_div; reflexivity).
  assert (HO : in_size <> bytes_for din n) by (intros E; apply HN; split; auto).
  rewrite Hn'. clear HN Hn'.
  rewrite packed_numel_ok by (auto; change (2 ^ 62)%Z with 4611686018427387904%Z; lia). cbn [bind].
  assert (Hb : bytes_for din n <= n) by (unfold bytes_for; destruct Hq as [->|[->| ->]]; cbn [bit_size]; lia).
  assert (Hsd : stride din = 1) by (destruct Hq as [->|[->| ->]]; reflexivity). rewrite Hsd.
  rewrite wrap_u64_id by (change (2 ^ 64)%Z with 18446744073709551616%Z; lia).
  rewrite (proj2 (Z.eqb_neq _ _)) by lia. reflexivity.
Qed.
Lemma fused_abort A nt oaddr in_size dt out_size dq scale zp rm op thr :
  ~ fused_args_ok in_size dt out_size dq ->
  quantize_dequantize_fused A nt oaddr (Z.of_nat in_size) dt (Z.of_nat out_size) dq scale zp rm op thr = Abort.
Proof.
  intros HN. unfold quantize_dequantize_fused.
  destruct (fp_dec dt) as [Hfp|Hfp]; [|rewrite not_fp_quant by auto; reflexivity].
  destruct (q_dec dq) as [Hq|Hq]; [|rewrite is_quant_fp, not_q_quant by auto; reflexivity].
  rewrite is_quant_fp, is_quant_q by auto. cbn [assert negb bind].
  rewrite (proj2 (Z.eqb_neq _ _)); [reflexivity|]. intros E. apply HN. split; auto. split; auto. lia.
Qed.

(** what "validated" means: bad arguments end in abort and nothing else happens (no job is created, so no byte of the output is touched);
    good arguments never abort, neither in the checks nor in any worker *)
Definition validated (ok : Prop) (call : res (list (list action))) : Prop :=
  (~ ok -> call = Abort) /\
  (ok -> (exists jobs, call = Ok jobs) /\ forall inm outm r, returns inm outm call r -> r <> Abort).

Lemma validated_intro ok call : (~ ok -> call = Abort) -> (ok -> exists jobs, call = Ok jobs /\ Forall (Forall quiet) jobs) -> validated ok call.
Proof.
  intros H1 H2. split; auto. intros H. destruct (H2 H) as (jobs & E & HF). split; [eauto|]. intros inm outm r HR. rewrite E in HR. eapply returns_na; eauto.
Qed.

Theorem C25_quantize A nt oaddr in_size din out_size dout scale zp rm thr :
  sizes_ok in_size (numel din in_size) nt ->
  validated (quantize_args_ok in_size din out_size dout)
            (quantize A nt oaddr (Z.of_nat in_size) din (Z.of_nat out_size) dout scale zp rm thr).
Proof.
  intros HS. apply validated_intro; [intros HN; apply quantize_abort; auto; apply HS|].
  intros (Hfp & Hq & Ho). pose proof (quantize_jobs A nt oaddr in_size din out_size dout scale zp rm thr Hfp Hq Ho HS) as E.
  eexists. split; [exact E|]. unfold quantize in E. rewrite is_quant_fp, is_quant_q in E by auto. cbn [assert negb bind] in E.
  match type of E with (e <- ?x ;; _) = _ => destruct x; cbn [bind] in E; try discriminate end.
  destruct (_ =? _)%Z; cbn [assert bind] in E; try discriminate. eapply run_command_quiet; eauto.
Qed.
Theorem C25_dequantize A nt oaddr in_size din out_size dout scale zp op :
  sizes_ok out_size (numel dout out_size) nt ->
  validated (dequantize_args_ok in_size din out_size dout)
            (dequantize A nt oaddr (Z.of_nat in_size) din (Z.of_nat out_size) dout scale zp op).
Proof.
  intros HS. apply validated_intro; [intros HN; apply dequantize_abort; auto; apply HS|].
  intros (Hq & Hfp & Ho). pose proof (dequantize_jobs A nt oaddr in_size din out_size dout scale zp op Hq Hfp Ho HS) as E.
  eexists. split; [exact E|]. unfold dequantize in E. rewrite (is_quant_fp dout), (is_quant_q din) in E by auto. cbn [assert negb bind] in E.
  match type of E with (e <- ?x ;; _) = _ => destruct x; cbn [bind] in E; try discriminate end.
  destruct (_ =? _)%Z; cbn [assert bind] in E; try discriminate. eapply run_command_quiet; eauto.
Qed.
Theorem C25_fused A nt oaddr in_size dt out_size dq scale zp rm op thr :
  sizes_ok in_size (numel dt in_size) nt ->
  validated (fused_args_ok in_size dt out_size dq)
            (quantize_dequantize_fused A nt oaddr (Z.of_nat in_size) dt (Z.of_nat out_size) dq scale zp rm op thr).
Proof.
  intros HS. apply validated_intro; [intros HN; apply fused_abort; auto|].
  intros (Hfp & Hq & Ho). subst out_size. pose proof (fused_jobs A nt oaddr in_size dt dq scale zp rm op thr Hfp Hq HS) as E.
  eexists. split; [exact E|]. unfold quantize_dequantize_fused in E. rewrite is_quant_fp, is_quant_q in E by auto. cbn [assert negb bind] in E.
  rewrite Z.eqb_refl in E. cbn [assert bind] in E. eapply run_command_quiet; eauto.
Qed.
