(** PropsWeak.v -- C51: when the bytes of a call become visible to its caller. *)
From Coq Require Import ZArith List Bool Arith Lia ZifyBool ZifyNat Permutation.
From Coq Require Import Reals.
From Verif Require Import Base Floats Simd Dtypes Spec ApiSpec QuantKernels DequantKernels ExecFacts FloatFacts QuantFacts QuantKernelFacts LoopFacts
  QuantGenericFacts DequantFacts Context ContextFacts Footprint QuantizeFacts DequantizeFacts Api PropsQuantize Schedule PropsMemory PathSpec PropsPaths WeakMem WeakFacts.
Import ListNotations.

Lemma call_facts inm outm jobs o : ForallOrdPairs disj (concat jobs) -> Forall no_abort (concat jobs) -> returns inm outm (Ok jobs) (Ok o) ->
  length o = length outm /\ Forall (good inm outm o) (concat jobs) /\
  (forall k, (forall a, In a (concat jobs) -> ~ touch a k) -> nth k o 0%Z = nth k outm 0%Z).
Proof.
  intros HD HN H. apply returns_jobs in H. destruct H as (tr & HI & E). apply interleave_perm in HI.
  rewrite <- (run_trace_perm inm _ _ HI HD HN) in E. apply trace_final; auto.
Qed.

(** ** The jobs of the three calls *)
Lemma quantize_shape A nt oaddr din dout scale zp rm thr in_size out_size :
  float_type din -> quant_type dout -> out_size = bytes_for dout (numel din in_size) -> sizes_ok in_size (numel din in_size) nt ->
  exists jobs, quantize A nt oaddr (Z.of_nat in_size) din (Z.of_nat out_size) dout scale zp rm thr = Ok jobs /\
    jobs = map (q_job A din dout rm oaddr (numel din in_size) nt scale (thr_of rm thr) zp) (seq 0 nt) /\
    ForallOrdPairs disj (concat jobs) /\ Forall no_abort (concat jobs).
Proof.
  intros Hfp Hq Ho HS. rewrite quantize_jobs by auto. eexists. split; [reflexivity|]. split; [reflexivity|].
  destruct (q_foot A din dout rm oaddr (numel din in_size) nt scale (thr_of rm thr) zp Hfp Hq) as [T _]; [destruct HS; lia|].
  split; [eapply tiles_fop; eauto|]. apply jobs_Forall. intros. apply q_job_na.
Qed.
Lemma dequantize_shape A nt oaddr din dout scale zp op in_size out_size :
  quant_type din -> float_type dout -> in_size = bytes_for din (numel dout out_size) -> sizes_ok out_size (numel dout out_size) nt ->
  exists jobs, dequantize A nt oaddr (Z.of_nat in_size) din (Z.of_nat out_size) dout scale zp op = Ok jobs /\
    ForallOrdPairs disj (concat jobs) /\ Forall no_abort (concat jobs).
Proof.
  intros Hq Hfp Ho HS. rewrite dequantize_jobs by auto. eexists. split; [reflexivity|].
  destruct (d_foot A din dout op (numel dout out_size) nt scale zp Hq Hfp) as [T _]; [destruct HS; lia|].
  split; [eapply tiles_fop; eauto|]. apply jobs_Forall. intros. apply d_job_na.
Qed.
Lemma fused_shape A nt oaddr dt dq scale zp rm op thr size :
  float_type dt -> quant_type dq -> sizes_ok size (numel dt size) nt ->
  exists jobs, quantize_dequantize_fused A nt oaddr (Z.of_nat size) dt (Z.of_nat size) dq scale zp rm op thr = Ok jobs /\
    ForallOrdPairs disj (concat jobs) /\ Forall no_abort (concat jobs).
Proof.
  intros Hfp Hq HS. rewrite fused_jobs by auto. eexists. split; [reflexivity|].
  destruct (f_foot dt dq rm op (numel dt size) nt scale (thr_of rm thr) zp Hfp Hq) as [T _]; [destruct HS; lia|].
  split; [eapply tiles_fop; eauto|]. apply jobs_Forall. intros. apply f_job_na.
Qed.

(** ** Which bytes are streamed *)
Lemma stream_loops numel oaddr mask al n b1 b2 k : (0 < al)%Z -> (forall z, (Z.land z mask =? 0)%Z = (z mod al =? 0)%Z) -> n >= 2 ->
  (forall i, a_olen (b1 i) = 1) -> (forall i, a_olen (b2 i) = n /\ a_ooff (b2 i) = i) ->
  ((exists a, In a (fst (seq_loops numel [(peel_cond oaddr mask numel, 1, b1); (blk_cond numel n, n, b2); (blk_cond numel 1, 1, b1)])) /\ 1 < a_olen a /\ touch a k) <->
   peel_len oaddr al numel <= k < blk_end (peel_len oaddr al numel) n numel).
Proof.
  intros Hal Hm Hn H1 H2. unfold seq_loops. cbn [fold_left]. pose proof (peel_len_le oaddr al numel) as Hp.
  rewrite (run_loop_peel numel oaddr mask al b1 [] Hal Hm). set (p := peel_len oaddr al numel) in *. clearbody p.
  rewrite run_loop_blk by lia. rewrite run_loop_blk by (try apply blk_end_le; lia). cbn [fst app]. split.
  - intros (a & Ha & L & T). rewrite !in_app_iff, !in_map_iff in Ha. destruct Ha as [[(j & <- & _)|(j & <- & Hj)]|(j & <- & _)]; [rewrite H1 in L; lia| |rewrite H1 in L; lia].
    apply in_seq in Hj. destruct (H2 (p + n * j)) as [E1 E2]. unfold touch in T. rewrite E1, E2 in T. unfold blk_end. set (q := (numel - p) / n) in *. clearbody q.
    assert (n * (j + 1) <= n * q) by (apply Nat.mul_le_mono_l; lia). lia.
  - intros Hk. unfold blk_end in Hk. assert (Hj : (k - p) / n < (numel - p) / n) by (apply Nat.div_lt_upper_bound; lia).
    pose proof (Nat.div_mod (k - p) n ltac:(lia)) as D. pose proof (Nat.mod_upper_bound (k - p) n ltac:(lia)) as B.
    set (q := (k - p) / n) in *. set (w := (numel - p) / n) in *. set (r := (k - p) mod n) in *. clearbody q w r.
    exists (b2 (p + n * q)). destruct (H2 (p + n * q)) as [E1 E2]. rewrite !in_app_iff, !in_map_iff. split; [left; right; exists q; split; auto; apply in_seq; lia|].
    unfold touch. rewrite E1, E2. lia.
Qed.

Lemma stream_kernel A din oaddr n scale thr zp k : float_type din -> streaming_kernel A din DT_UINT8 RM_NEAREST = true ->
  (exists a, In a (quant_generic A din DT_UINT8 RM_NEAREST oaddr n scale thr zp) /\ 1 < a_olen a /\ touch a k) <->
  q_vec A din DT_UINT8 RM_NEAREST oaddr n k = true.
Proof.
  intros Hfp HS. unfold q_vec. cbv zeta. rewrite andb_true_iff, Nat.leb_le, Nat.ltb_lt.
  destruct Hfp as [->| ->], A; try discriminate; cbn [quant_generic q_start q_block];
    unfold quant_f32_to_uint8_nearest, quant_bf16_to_uint8_nearest; cbn [app];
    (match goal with |- context [act_block_stream _ _ _ 64 _ _] => apply (stream_loops n oaddr 15 16 64) | |- context [act_block_stream _ _ _ 32 _ _] => apply (stream_loops n oaddr 31 32 32)
     | |- _ => apply (stream_loops n oaddr 15 16 16) end); first [apply mask15 | apply mask31 | lia | intros; split; reflexivity | reflexivity].
Qed.

Lemma stream_bytes A nt oaddr din scale zp thr n k : float_type din -> nt > 0 -> streaming_kernel A din DT_UINT8 RM_NEAREST = true ->
  streamed (streams A din DT_UINT8 RM_NEAREST) (map (q_job A din DT_UINT8 RM_NEAREST oaddr n nt scale thr zp) (seq 0 nt)) k <->
  vector_path A din DT_UINT8 oaddr n nt k = true.
Proof.
  intros Hfp Hnt HS. unfold streamed. split.
  - intros (a & Ha & Na & T). apply in_concat in Ha. destruct Ha as (job & Hj & Ha). apply in_map_iff in Hj. destruct Hj as (t & <- & Ht). apply in_seq in Ht.
    unfold q_job in Ha. change (per_byte DT_UINT8) with 1 in Ha. set (b := part_bound 1 n nt) in *.
    destruct (Nat.leb_spec (b (S t)) (b t)) as [|Hb]; [destruct Ha|]. rewrite Nat.div_1_r in Ha. apply in_map_iff in Ha. destruct Ha as (a' & <- & Ha).
    unfold streams in Na. rewrite HS in Na. cbn [andb shift_action a_olen] in Na. unfold touch in T. cbn [shift_action a_olen a_ooff] in T.
    assert (V : q_vec A din DT_UINT8 RM_NEAREST (oaddr + Z.of_nat (b t)) (b (S t) - b t) (k - b t) = true).
    { apply (stream_kernel A din _ _ scale thr zp); auto. exists a'. split; auto. unfold touch. lia. }
    assert (k - b t < b (S t) - b t).
    { unfold q_vec in V. cbv zeta in V. apply andb_prop in V. destruct V as [_ V]. pose proof (blk_end_le (q_start A din DT_UINT8 RM_NEAREST (oaddr + Z.of_nat (b t)) (b (S t) - b t)) (q_block A din DT_UINT8 RM_NEAREST) (b (S t) - b t) (q_start_le _ _ _ _ _ _)). lia. }
    rewrite (vector_path_owner A din DT_UINT8 oaddr n nt t k (or_intror (or_intror eq_refl)) Hnt (proj2 Ht)).
    + change (per_byte DT_UINT8) with 1. fold b. rewrite Nat.div_1_r. exact V.
    + change (per_byte DT_UINT8) with 1. fold b. lia.
  - intros V. unfold vector_path in V. apply existsb_exists in V. destruct V as (t & Ht & V). cbv zeta in V. change (codes_per_byte DT_UINT8) with 1 in V. set (b := part_bound 1 n nt) in *.
    rewrite Nat.div_1_r in V. apply andb_prop in V. destruct V as [V1 V].
    apply (stream_kernel A din _ _ scale thr zp) in V; auto. destruct V as (a & Ha & L & T).
    exists (shift_action (esize din * b t) (b t) a). split; [|split].
    + apply in_concat. exists (q_job A din DT_UINT8 RM_NEAREST oaddr n nt scale thr zp t). split; [apply in_map; auto|]. unfold q_job. change (per_byte DT_UINT8) with 1. fold b.
      destruct (Nat.leb_spec (b (S t)) (b t)); [lia|]. rewrite Nat.div_1_r. apply in_map. auto.
    + unfold streams. rewrite HS. cbn [andb shift_action a_olen]. lia.
    + unfold touch in *. cbn [shift_action a_olen a_ooff]. lia.
Qed.

(** ** C51 *)
(** If the pool reports the end of a job only after the worker's buffers have drained, the caller finds exactly the result of the
    call (whatever it is: C01..C50 describe it), for all three calls, and the call does return. *)
Theorem C51_quantize_draining A nt oaddr din dout scale zp rm thr in_size out_size inm outm o :
  float_type din -> quant_type dout -> out_size = bytes_for dout (numel din in_size) -> sizes_ok in_size (numel din in_size) nt ->
  let call := quantize A nt oaddr (Z.of_nat in_size) din (Z.of_nat out_size) dout scale zp rm thr in
  returns inm outm call (Ok o) ->
  (forall m, call_returns (streams A din dout rm) Draining inm outm call m -> m = o) /\
  exists m, call_returns (streams A din dout rm) Draining inm outm call m.
Proof.
  intros Hfp Hq Ho HS call H. destruct (quantize_shape A nt oaddr din dout scale zp rm thr in_size out_size Hfp Hq Ho HS) as (jobs & E & _ & HD & HN).
  unfold call in *. rewrite E in *. destruct (call_facts _ _ _ _ HD HN H) as (L & G & R). split.
  - intros m (jobs' & cs & E' & HST & J). injection E' as <-. eapply join_draining; eauto.
  - destruct (reaches_join (streams A din dout rm) inm outm o Draining jobs L R (start jobs outm)) as (cs & m & HST & J); [apply inv_start; auto|]. exists m, jobs, cs. auto.
Qed.
Theorem C51_dequantize_any_signal A nt oaddr din dout scale zp op in_size out_size inm outm o :
  quant_type din -> float_type dout -> in_size = bytes_for din (numel dout out_size) -> sizes_ok out_size (numel dout out_size) nt ->
  let call := dequantize A nt oaddr (Z.of_nat in_size) din (Z.of_nat out_size) dout scale zp op in
  returns inm outm call (Ok o) ->
  forall sg, (forall m, call_returns streams_never sg inm outm call m -> m = o) /\ exists m, call_returns streams_never sg inm outm call m.
Proof.
  intros Hq Hfp Ho HS call H sg. destruct (dequantize_shape A nt oaddr din dout scale zp op in_size out_size Hq Hfp Ho HS) as (jobs & E & HD & HN).
  unfold call in *. rewrite E in *. destruct (call_facts _ _ _ _ HD HN H) as (L & G & R). split.
  - intros m (jobs' & cs & E' & HST & J). injection E' as <-. apply list_ext.
    + destruct (join_any _ _ _ _ _ _ L G R HD cs m 0 HST J) as (L' & _). congruence.
    + intros k _. destruct (join_any _ _ _ _ _ _ L G R HD cs m k HST J) as (_ & _ & F). apply F. discriminate.
  - destruct (reaches_join streams_never inm outm o sg jobs L R (start jobs outm)) as (cs & m & HST & J); [apply inv_start; auto|]. exists m, jobs, cs. auto.
Qed.
Theorem C51_fused_any_signal A nt oaddr dt dq scale zp rm op thr size inm outm o :
  float_type dt -> quant_type dq -> sizes_ok size (numel dt size) nt ->
  let call := quantize_dequantize_fused A nt oaddr (Z.of_nat size) dt (Z.of_nat size) dq scale zp rm op thr in
  returns inm outm call (Ok o) ->
  forall sg, (forall m, call_returns streams_never sg inm outm call m -> m = o) /\ exists m, call_returns streams_never sg inm outm call m.
Proof.
  intros Hfp Hq HS call H sg. destruct (fused_shape A nt oaddr dt dq scale zp rm op thr size Hfp Hq HS) as (jobs & E & HD & HN).
  unfold call in *. rewrite E in *. destruct (call_facts _ _ _ _ HD HN H) as (L & G & R). split.
  - intros m (jobs' & cs & E' & HST & J). injection E' as <-. apply list_ext.
    + destruct (join_any _ _ _ _ _ _ L G R HD cs m 0 HST J) as (L' & _). congruence.
    + intros k _. destruct (join_any _ _ _ _ _ _ L G R HD cs m k HST J) as (_ & _ & F). apply F. discriminate.
  - destruct (reaches_join streams_never inm outm o sg jobs L R (start jobs outm)) as (cs & m & HST & J); [apply inv_start; auto|]. exists m, jobs, cs. auto.
Qed.

(** The quantize calls whose kernels contain no streaming store need no draining either: packed outputs, stochastic rounding, the
    portable and NEON kernels, bfloat16 input except on AVX2. *)
Theorem C51_plain_unstreamed A nt oaddr din dout scale zp rm thr in_size out_size inm outm o :
  float_type din -> quant_type dout -> out_size = bytes_for dout (numel din in_size) -> sizes_ok in_size (numel din in_size) nt ->
  (dout <> DT_UINT8 \/ rm = RM_STOCHASTIC \/ A = GENERIC \/ A = NEON \/ (din = DT_BF16 /\ A <> AVX2)) ->
  let call := quantize A nt oaddr (Z.of_nat in_size) din (Z.of_nat out_size) dout scale zp rm thr in
  returns inm outm call (Ok o) -> forall sg m, call_returns (streams A din dout rm) sg inm outm call m -> m = o.
Proof.
  intros Hfp Hq Ho HS HU call H sg m. destruct (quantize_shape A nt oaddr din dout scale zp rm thr in_size out_size Hfp Hq Ho HS) as (jobs & E & _ & HD & HN).
  unfold call in *. rewrite E in *. destruct (call_facts _ _ _ _ HD HN H) as (L & G & R).
  assert (HK : forall a, streams A din dout rm a = false).
  { intros a. unfold streams. replace (streaming_kernel A din dout rm) with false; auto.
    destruct HU as [X|[->|[->|[->|[-> X]]]]]; [destruct A, din, dout, rm; auto; congruence|destruct A, din, dout; auto|auto|auto|destruct A, dout, rm; auto; congruence]. }
  intros (jobs' & cs & E' & HST & J). injection E' as <-. apply list_ext.
  - destruct (join_any _ _ _ _ _ _ L G R HD cs m 0 HST J) as (L' & _). congruence.
  - intros k _. destruct (join_any _ _ _ _ _ _ L G R HD cs m k HST J) as (_ & _ & F). apply F. intros a _ X. rewrite HK in X. discriminate.
Qed.

(** With a plain store as the signal, whatever the kernel: every byte is the old or the final one, and a byte that no vector iteration
    wrote is final. *)
Theorem C51_plain_late_bytes A nt oaddr din dout scale zp rm thr in_size out_size inm outm o m k :
  float_type din -> quant_type dout -> out_size = bytes_for dout (numel din in_size) -> sizes_ok in_size (numel din in_size) nt ->
  let call := quantize A nt oaddr (Z.of_nat in_size) din (Z.of_nat out_size) dout scale zp rm thr in
  returns inm outm call (Ok o) -> call_returns (streams A din dout rm) Plain_store inm outm call m ->
  length m = length outm /\ (nth k m 0%Z = nth k outm 0%Z \/ nth k m 0%Z = nth k o 0%Z) /\
  (vector_path A din dout oaddr (numel din in_size) nt k = false -> nth k m 0%Z = nth k o 0%Z).
Proof.
  intros Hfp Hq Ho HS call H C. destruct (quantize_shape A nt oaddr din dout scale zp rm thr in_size out_size Hfp Hq Ho HS) as (jobs & E & EJ & HD & HN).
  unfold call in *. rewrite E in *. destruct (call_facts _ _ _ _ HD HN H) as (L & G & R). destruct C as (jobs' & cs & E' & HST & J). injection E' as <-.
  destruct (join_any _ _ _ _ _ _ L G R HD cs m k HST J) as (L' & T & F). split; auto. split; auto. intros V. apply F. intros a Ha Na Ta.
  destruct (streaming_kernel A din dout rm) eqn:K; [|unfold streams in Na; rewrite K in Na; discriminate].
  assert (dout = DT_UINT8 /\ rm = RM_NEAREST) as [-> ->] by (destruct A, din, dout, rm; try discriminate; auto).
  assert (X : vector_path A din DT_UINT8 oaddr (numel din in_size) nt k = true); [|congruence].
  apply (stream_bytes A nt oaddr din scale zp (thr_of RM_NEAREST thr)); auto; [destruct HS; lia|]. exists a. rewrite EJ in Ha. auto.
Qed.

(** ... and the streamed bytes can indeed all be missing: for every kernel with streaming stores, every length and every number of threads
    there is an execution in which the call has returned and no byte written by a vector iteration has reached the output buffer. *)
Theorem C51_plain_signal_refuted A nt oaddr din scale zp thr in_size out_size inm outm o :
  (din = DT_F32 /\ A <> GENERIC /\ A <> NEON) \/ (din = DT_BF16 /\ A = AVX2) -> out_size = bytes_for DT_UINT8 (numel din in_size) -> sizes_ok in_size (numel din in_size) nt ->
  let call := quantize A nt oaddr (Z.of_nat in_size) din (Z.of_nat out_size) DT_UINT8 scale zp RM_NEAREST thr in
  returns inm outm call (Ok o) ->
  exists m, call_returns (streams A din DT_UINT8 RM_NEAREST) Plain_store inm outm call m /\
    forall k, nth k m 0%Z = if vector_path A din DT_UINT8 oaddr (numel din in_size) nt k then nth k outm 0%Z else nth k o 0%Z.
Proof.
  intros HA Ho HS call H. assert (Hfp : float_type din) by (destruct HA as [[-> _]|[-> _]]; [left|right]; auto).
  assert (Hq : quant_type DT_UINT8) by (right; right; auto).
  assert (K : streaming_kernel A din DT_UINT8 RM_NEAREST = true) by (destruct HA as [(-> & X & Y)|[-> ->]]; [destruct A; auto; congruence|reflexivity]).
  destruct (quantize_shape A nt oaddr din DT_UINT8 scale zp RM_NEAREST thr in_size out_size Hfp Hq Ho HS) as (jobs & E & EJ & HD & HN).
  unfold call in *. rewrite E in *. destruct (call_facts _ _ _ _ HD HN H) as (L & G & R).
  destruct (lazy_join (streams A din DT_UINT8 RM_NEAREST) inm outm o Plain_store jobs L G R HD eq_refl) as (cs & m & HST & J & Z).
  assert (C : call_returns (streams A din DT_UINT8 RM_NEAREST) Plain_store inm outm (Ok jobs) m) by (exists jobs, cs; auto).
  exists m. split; auto. intros k. destruct (vector_path A din DT_UINT8 oaddr (numel din in_size) nt k) eqn:V.
  - apply Z. rewrite EJ. apply stream_bytes; auto. destruct HS; lia.
  - pose proof (C51_plain_late_bytes A nt oaddr din DT_UINT8 scale zp RM_NEAREST thr in_size out_size inm outm o m k Hfp Hq Ho HS) as T. cbv zeta in T. rewrite E in T.
    destruct (T H C) as (_ & _ & F). auto.
Qed.

(** End to end: what the caller of a nearest-mode quantize call finds in its buffer. *)
Theorem C51_caller_finds_codes A nt oaddr din dout scale zp thr inm outm m :
  buffers_ok nt din dout inm outm -> good_scale scale -> (Z.abs zp <= 2 ^ 22)%Z ->
  (forall i, i < numel din (length inm) -> nearest_ok A scale (elem_at din inm i)) ->
  call_returns (streams A din dout RM_NEAREST) Draining inm outm (quantize_call A nt oaddr din dout scale zp RM_NEAREST thr inm outm) m ->
  length m = length outm /\
  forall i, i < numel din (length inm) ->
    code_at dout m i = clamp 0 (2 ^ Z.of_nat (bit_size dout) - 1)
                             (round_half_away (RN32 (val (elem_at din inm i) * RN32 (1 / val scale))) + zp).
Proof.
  intros HB Hsc Hz HI HC. destruct (returns_total inm outm (quantize_call A nt oaddr din dout scale zp RM_NEAREST thr inm outm)) as [r HR].
  destruct (C01_quantize_nearest A nt oaddr din dout scale zp thr inm outm r HB Hsc Hz HI HR) as (o & -> & L & E).
  destruct HB as (Hfp & Hq & _ & Hl & HS). unfold quantize_call in *.
  destruct (C51_quantize_draining A nt oaddr din dout scale zp RM_NEAREST thr (length inm) (length outm) inm outm o Hfp Hq Hl HS HR) as [F _].
  rewrite (F m HC). auto.
Qed.
