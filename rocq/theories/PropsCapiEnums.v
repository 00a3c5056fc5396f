(** PropsCapiEnums.v -- C26: the rounding-mode, reduce-op and target-dtype enum arguments of the C functions, for every value. *)
From Coq Require Import ZArith List Lia Bool Permutation.
From Verif Require Import Base ExecFacts Floats Dtypes QuantKernels DequantKernels Context MinMax Spec ApiSpec Api PropsQuantize PropsMemory PropsDequantize Capi PropsCapi.
Import ListNotations.
Local Open Scope Z_scope.

(** The values of the C enumerations piquant_round_mode_t and piquant_reduce_op_t (include/piquant.h:24-41). *)
Definition valid_round_mode (v : Z) : Prop := v = 0 \/ v = 1.
Definition valid_reduce_op (v : Z) : Prop := v = 0 \/ v = 1.

Lemma mode_invalid v : ~ valid_round_mode v -> round_mode_of_enum v = None.
Proof. unfold valid_round_mode, round_mode_of_enum. intros H. destruct (Z.eqb_spec v 0), (Z.eqb_spec v 1); try tauto; reflexivity. Qed.
Lemma op_invalid v : ~ valid_reduce_op v -> reduce_op_of_enum v = None.
Proof. unfold valid_reduce_op, reduce_op_of_enum. intros H. destruct (Z.eqb_spec v 0), (Z.eqb_spec v 1); try tauto; reflexivity. Qed.

Lemma no_work_false jobs j (a : action) : In j jobs -> In a j -> no_work jobs = false.
Proof.
  intros Hj Ha. unfold no_work. destruct (forallb _ jobs) eqn:E; auto. rewrite forallb_forall in E. specialize (E j Hj).
  destruct j; [contradiction|discriminate].
Qed.
Lemma no_work_concat jobs : no_work jobs = true -> concat jobs = [].
Proof.
  induction jobs as [|j l IH]; cbn; auto. destruct j; cbn; [auto|discriminate].
Qed.
Lemma all_nil_no_work jobs : (forall j a, In j jobs -> In a j -> False) -> no_work jobs = true.
Proof.
  intros H. apply forallb_forall. intros j Hj. destruct j as [|a j]; auto. exfalso. apply (H (a :: j) a Hj). left. auto.
Qed.
Lemma returns_no_work jobs inm outm r : no_work jobs = true -> returns inm outm (Ok jobs) r -> r = Ok outm.
Proof.
  intros H HR. apply returns_jobs in HR. destruct HR as (tr & HI & ->). apply interleave_perm in HI. rewrite (no_work_concat _ H) in HI.
  apply Permutation_nil in HI. subst. reflexivity.
Qed.
Lemma map_seq_no_work (f : nat -> list action) nt : (forall t, (t < nt)%nat -> f t = []) -> no_work (map f (seq 0 nt)) = true.
Proof.
  intros H. apply all_nil_no_work. intros j a Hj Ha. apply in_map_iff in Hj. destruct Hj as (t & <- & Ht). apply in_seq in Ht. rewrite H in Ha by lia. contradiction.
Qed.

(** The jobs of a call on no elements are all empty; those of a call on at least one element are not. *)
Lemma quantize_no_work A nt oaddr din dout numel scale zp rm thr : float_type din -> quant_type dout -> sizes_ok (numel * stride din) numel nt ->
  exists jobs, quantize A nt oaddr (Z.of_nat (numel * stride din)) din (Z.of_nat (bytes_for dout numel)) dout scale zp rm thr = Ok jobs /\
    no_work jobs = (numel =? 0)%nat.
Proof.
  intros Hf Hq HS. pose proof (numel_exact din numel Hf) as E.
  assert (HJ : quantize A nt oaddr (Z.of_nat (numel * stride din)) din (Z.of_nat (bytes_for dout numel)) dout scale zp rm thr =
    Ok (map (QuantizeFacts.q_job A din dout rm oaddr numel nt scale (thr_of rm thr) zp) (seq 0 nt))).
  { rewrite quantize_jobs; auto; rewrite E; auto. }
  eexists. split; [exact HJ|].
  destruct numel as [|m].
  - apply map_seq_no_work. intros t Ht. unfold QuantizeFacts.q_job.
    match goal with |- (if ?c then _ else _) = _ => replace c with true; auto end.
    symmetry. apply Nat.leb_le. transitivity 0%nat; [|lia]. apply ContextFacts.part_le; try lia. 1: destruct Hq as [->|[->| ->]]; cbn; lia.
  - destruct (C03_footprint A nt oaddr din dout scale zp rm thr (S m * stride din) (bytes_for dout (S m)) _ Hf Hq ltac:(rewrite E; reflexivity) ltac:(rewrite E; exact HS) HJ)
      as (_ & _ & _ & HC).
    destruct (HC 0%nat) as (j & a & Hj & Ha & _). { unfold bytes_for. destruct Hq as [->|[->| ->]]; cbn [bit_size]; apply Nat.div_str_pos; lia. }
    exact (no_work_false _ _ _ Hj Ha).
Qed.
Lemma dequantize_no_work A nt oaddr din dout numel scale zp op : quant_type din -> float_type dout -> sizes_ok (numel * stride dout) numel nt ->
  exists jobs, dequantize A nt oaddr (Z.of_nat (bytes_for din numel)) din (Z.of_nat (numel * stride dout)) dout scale zp op = Ok jobs /\
    no_work jobs = (numel =? 0)%nat.
Proof.
  intros Hq Hf HS. pose proof (numel_exact dout numel Hf) as E.
  assert (HJ : dequantize A nt oaddr (Z.of_nat (bytes_for din numel)) din (Z.of_nat (numel * stride dout)) dout scale zp op =
    Ok (map (DequantizeFacts.d_job A din dout op numel nt scale zp) (seq 0 nt))).
  { rewrite dequantize_jobs; auto; rewrite E; auto. }
  eexists. split; [exact HJ|].
  destruct numel as [|m].
  - apply map_seq_no_work. intros t Ht. unfold DequantizeFacts.d_job.
    match goal with |- (if ?c then _ else _) = _ => replace c with true; auto end.
    symmetry. apply Nat.leb_le. transitivity 0%nat; [|lia]. apply ContextFacts.part_le; try lia. 1: destruct Hq as [->|[->| ->]]; cbn; lia.
  - destruct (C09_footprint A nt oaddr din dout scale zp op (bytes_for din (S m)) (S m * stride dout) _ Hq Hf ltac:(rewrite E; reflexivity) ltac:(rewrite E; exact HS) HJ)
      as (_ & _ & _ & _ & HC).
    destruct (HC 0%nat) as (j & a & Hj & Ha & _). { rewrite E. destruct Hf as [->| ->]; cbn [stride]; lia. }
    exact (no_work_false _ _ _ Hj Ha).
Qed.

(** ** C26: a call on no elements is harmless whatever the rounding mode or reduce op: it returns with the output untouched. *)
Theorem C26_empty_call A nt oaddr din dout scale zp mode op thr inm outm r : float_type din -> quant_type dout -> (1 <= nt)%nat -> (Z.of_nat nt < 2 ^ 63) ->
  (returns inm outm (c_quantize A nt oaddr (PIQUANT_DTYPE din) (PIQUANT_DTYPE dout) 0 scale zp mode thr) r -> r = Ok outm) /\
  (returns inm outm (c_dequantize A nt oaddr (PIQUANT_DTYPE dout) (PIQUANT_DTYPE din) 0 scale zp op) r -> r = Ok outm).
Proof.
  intros Hf Hq Hn Hn'. assert (HS : sizes_ok (0 * stride din) 0 nt) by (repeat split; auto; cbn; lia).
  assert (L : Z.of_nat (0 * stride din) < 2 ^ 64) by (cbn; lia).
  split; intros HR.
  - unfold c_quantize in HR. destruct (round_mode_of_enum mode) as [m|] eqn:Em.
    + destruct (quantize_no_work A nt oaddr din dout 0 scale zp m thr Hf Hq HS) as (jobs & HJ & HW).
      rewrite <- (C27_quantize A nt oaddr din dout 0 scale zp m thr Hf Hq L) in HJ.
      refine (returns_no_work jobs inm outm r HW _). rewrite <- HJ. unfold c_quantize. rewrite enum_mode. exact HR.
    + destruct (quantize_no_work A nt oaddr din dout 0 scale zp RM_NEAREST thr Hf Hq HS) as (jobs & HJ & HW).
      rewrite <- (C27_quantize A nt oaddr din dout 0 scale zp RM_NEAREST thr Hf Hq L) in HJ.
      refine (returns_no_work jobs inm outm r HW _).
      unfold c_quantize in HJ. rewrite !enum_dtype, enum_mode in HJ. rewrite !enum_dtype in HR. cbn [bind] in HJ, HR.
      change (Z.of_nat 0) with 0 in HJ. destruct (c_quantize_sizes 0 din dout) as [sz| |]; cbn [bind] in HJ, HR; try discriminate.
      rewrite HJ in HR. unfold bad_index in HR. cbn [bind] in HR. rewrite HW in HR. exact HR.
  - unfold c_dequantize in HR. destruct (reduce_op_of_enum op) as [m|] eqn:Em.
    + destruct (dequantize_no_work A nt oaddr dout din 0 scale zp m Hq Hf HS) as (jobs & HJ & HW).
      rewrite <- (C27_dequantize A nt oaddr dout din 0 scale zp m Hq Hf L) in HJ.
      refine (returns_no_work jobs inm outm r HW _). rewrite <- HJ. unfold c_dequantize. rewrite enum_op. exact HR.
    + destruct (dequantize_no_work A nt oaddr dout din 0 scale zp RO_SET Hq Hf HS) as (jobs & HJ & HW).
      rewrite <- (C27_dequantize A nt oaddr dout din 0 scale zp RO_SET Hq Hf L) in HJ.
      refine (returns_no_work jobs inm outm r HW _).
      unfold c_dequantize in HJ. rewrite !enum_dtype, enum_op in HJ. rewrite !enum_dtype in HR. cbn [bind] in HJ, HR.
      change (Z.of_nat 0) with 0 in HJ. destruct (c_dequantize_sizes 0 dout din) as [sz| |]; cbn [bind] in HJ, HR; try discriminate.
      rewrite HJ in HR. unfold bad_index in HR. cbn [bind] in HR. rewrite HW in HR. exact HR.
Qed.

(** ** C26: on at least one element, a rounding mode or reduce op outside the enumeration is undefined behaviour (it indexes past the
    kernel tables), for every context, address, scale, zero point and value. *)
Theorem C26_bad_mode_refuted A nt oaddr din dout numel scale zp mode thr : float_type din -> quant_type dout ->
  sizes_ok (numel * stride din) numel nt -> (numel > 0)%nat -> ~ valid_round_mode mode ->
  c_quantize A nt oaddr (PIQUANT_DTYPE din) (PIQUANT_DTYPE dout) (Z.of_nat numel) scale zp mode thr = UB.
Proof.
  intros Hf Hq HS Hn Hm.
  destruct (quantize_no_work A nt oaddr din dout numel scale zp RM_NEAREST thr Hf Hq HS) as (jobs & HJ & HW).
  rewrite <- C27_quantize in HJ by (auto; destruct HS as (_ & _ & _ & HS); lia).
  unfold c_quantize in *. rewrite mode_invalid by auto. rewrite !enum_dtype in *. rewrite enum_mode in HJ. cbn [bind] in *.
  destruct (c_quantize_sizes (Z.of_nat numel) din dout) as [sz| |]; cbn [bind] in *; try discriminate; auto.
  rewrite HJ. unfold bad_index. cbn [bind]. rewrite HW. destruct numel; [lia|]. reflexivity.
Qed.
Theorem C26_bad_reduce_op_refuted A nt oaddr din dout numel scale zp op : quant_type din -> float_type dout ->
  sizes_ok (numel * stride dout) numel nt -> (numel > 0)%nat -> ~ valid_reduce_op op ->
  c_dequantize A nt oaddr (PIQUANT_DTYPE din) (PIQUANT_DTYPE dout) (Z.of_nat numel) scale zp op = UB.
Proof.
  intros Hq Hf HS Hn Hm.
  destruct (dequantize_no_work A nt oaddr din dout numel scale zp RO_SET Hq Hf HS) as (jobs & HJ & HW).
  rewrite <- C27_dequantize in HJ by (auto; destruct HS as (_ & _ & _ & HS); lia).
  unfold c_dequantize in *. rewrite op_invalid by auto. rewrite !enum_dtype in *. rewrite enum_op in HJ. cbn [bind] in *.
  destruct (c_dequantize_sizes (Z.of_nat numel) din dout) as [sz| |]; cbn [bind] in *; try discriminate; auto.
  rewrite HJ. unfold bad_index. cbn [bind]. rewrite HW. destruct numel; [lia|]. reflexivity.
Qed.
(** The target dtype of the parameter computation: a value outside the enumeration is undefined behaviour for every data. *)
Theorem C26_bad_target_refuted a d inm blocks target : ~ valid_dtype target -> c_compute_quant_params a d inm blocks target = UB.
Proof. intros H. unfold c_compute_quant_params. rewrite enum_invalid by auto. reflexivity. Qed.
