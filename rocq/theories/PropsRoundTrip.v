(** PropsRoundTrip.v -- C09 (counterexample), C13, C14, C28: dequantize after quantize, the fused call. *)
From Coq Require Import ZArith List Lia Bool Arith ZifyBool ZifyNat Permutation Reals Lra.
From Flocq Require Import Core Binary Bits.
From Verif Require Import Base Floats Simd Dtypes Spec ApiSpec QuantKernels DequantKernels ExecFacts FloatFacts QuantFacts QuantKernelFacts
  QuantGenericFacts DequantFacts DequantGenericFacts QuantLanes Context ContextFacts Footprint QuantizeFacts DequantizeFacts Api PropsQuantize Schedule
  PropsMemory FloatFacts2 PropsDequantize.
Import ListNotations.

Ltac Zify.zify_post_hook ::= Z.div_mod_to_equations.

(** ** C09 is false of the code for uint2 -> f32 *)
Lemma u2_loop_end numel step pt : snd (run_loop numel ([], 0) (blk_cond numel 4, 4, dact_u2 4 step pt 4)) = 4 * (numel / 4).
Proof.
  destruct (run_loop_St (fun i => i <= numel /\ i mod 4 = 0) (fun _ => True) (fun i => 4 * i) numel ([], 0) (blk_cond numel 4) 4 (dact_u2 4 step pt 4)) as [H1 H2].
  - apply St_nil. split; [lia|reflexivity].
  - intros i [Hi Hm] Hc. unfold blk_cond in Hc. apply Nat.ltb_lt in Hc. cbn [Nat.sub] in Hc. split; [split; lia|].
    split; auto. unfold dact_u2; cbn [a_ooff a_olen]; lia.
  - lia.
  - intros; apply blk_cond_ge; auto.
  - destruct H1 as ((Hi & Hm) & _). apply blk_cond_false in H2. cbn [Nat.sub] in H2. apply block_end; auto; lia.
Qed.

Lemma last_job (b : nat -> nat) n nt : b 0 = 0 -> b nt = n -> n > 0 -> (forall t, t < nt -> b t <= b (S t)) -> (forall t, t <= nt -> b t <= n) ->
  exists t, t < nt /\ b t < b (S t) /\ b (S t) = n.
Proof.
  intros H0 Hn Hp Hm Hle. assert (G : forall k, k <= nt -> b k = n -> exists t, t < k /\ b t < b (S t) /\ b (S t) = n).
  { induction k as [|k IH]; intros Hk Hb; [lia|]. destruct (Nat.eq_dec (b k) n) as [E|E].
    - destruct IH as (t & T1 & T2); [lia|auto|]. exists t. split; [lia|auto].
    - exists k. specialize (Hle k ltac:(lia)). rewrite Hb. repeat split; lia. }
  apply (G nt); auto.
Qed.

(** With exactly sized buffers and a positive multiple of four elements, every uint2 -> f32 dequantization reads one byte
    past its input, on every kernel set, with every number of threads and in every schedule. *)
Theorem C09_uint2_overread_refuted A nt oaddr scale zp op inm outm r :
  let n := numel DT_F32 (length outm) in
  length inm = bytes_for DT_UINT2 n -> sizes_ok (length outm) n nt -> n > 0 -> n mod 4 = 0 ->
  returns inm outm (dequantize_call A nt oaddr DT_UINT2 DT_F32 scale zp op (length inm) outm) r -> r = UB.
Proof.
  intros n Hi HS Hn Hm HR. unfold dequantize_call in HR.
  rewrite dequantize_jobs in HR by (auto; left; reflexivity). fold n in HR.
  apply returns_jobs in HR. destruct HR as (tr & HI & ->).
  destruct HS as (S1 & _).
  destruct (last_job (part_bound 4 n nt) n nt) as (t & Ht & Hlt & Hlast); auto.
  { apply part_0; lia. } { apply part_last. } { intros; apply part_mono; lia. } { intros; apply part_le; lia. }
  destruct (part_aligned 4 n nt ltac:(lia) ltac:(lia) t Ht) as [c Hc].
  assert (Hperm := interleave_perm _ _ HI).
  set (act := shift_action (part_bound 4 n nt t / 4) (4 * part_bound 4 n nt t)
     (dact_u2 4 (dq_i64 scale zp) (put_f32 RO_SET) (Nat.modulo (part_bound 4 n nt (S t) - part_bound 4 n nt t) 4) (4 * ((part_bound 4 n nt (S t) - part_bound 4 n nt t) / 4)))).
  assert (Hin : In act (concat (map (d_job A DT_UINT2 DT_F32 op n nt scale zp) (seq 0 nt)))).
  { apply in_concat. exists (d_job A DT_UINT2 DT_F32 op n nt scale zp t). split; [apply in_map, in_seq; lia|].
    unfold d_job. cbn [per_byte]. destruct (Nat.leb_spec (part_bound 4 n nt (S t)) (part_bound 4 n nt t)); [lia|].
    cbn [dequant_generic]. change (esize DT_F32) with 4. apply in_map. unfold dequant_uint2_f32, seq_loops. cbn [fold_left].
    rewrite u2_loop_end. apply in_or_app. right. left. reflexivity. }
  apply (run_trace_oob inm tr act).
  - eapply Permutation_in; [exact Hperm|exact Hin].
  - eapply Permutation_Forall; [exact Hperm|]. apply jobs_Forall. intros; apply d_job_na.
  - unfold act, shift_action, dact_u2. cbn [a_ioff a_ilen]. change (Nat.div2 (Nat.div2 ?x)) with (quarter_idx x). rewrite quarter_div.
    rewrite Hi, Hlast, Hc. unfold bytes_for. cbn [bit_size]. clear - Hm Hlt Hc Hlast. lia.
Qed.

(** ** Codes written by quantize, as bytes *)
Lemma packed_byte_range d n C k : quant_type d -> (forall i, (0 <= C i <= code_max d)%Z) -> is_byte (packed_byte d n C k).
Proof.
  intros Hd HC. unfold is_byte, packed_byte. destruct Hd as [->|[->| ->]]; unfold codes_per_byte; cbn [bit_size];
  [change (8 / 2)%nat with 4|change (8 / 4)%nat with 2|change (8 / 8)%nat with 1]; cbn [seq map fold_right];
  change (code_max DT_UINT2) with 3%Z in HC || change (code_max DT_UINT4) with 15%Z in HC || change (code_max DT_UINT8) with 255%Z in HC.
  - change (2 ^ Z.of_nat (2 * 0))%Z with 1%Z. change (2 ^ Z.of_nat (2 * 1))%Z with 4%Z.
    change (2 ^ Z.of_nat (2 * 2))%Z with 16%Z. change (2 ^ Z.of_nat (2 * 3))%Z with 64%Z.
    pose proof (HC (4 * k + 0)). pose proof (HC (4 * k + 1)). pose proof (HC (4 * k + 2)). pose proof (HC (4 * k + 3)).
    destruct (4 * k + 0 <? n), (4 * k + 1 <? n), (4 * k + 2 <? n), (4 * k + 3 <? n); lia.
  - change (2 ^ Z.of_nat (4 * 0))%Z with 1%Z. change (2 ^ Z.of_nat (4 * 1))%Z with 16%Z.
    pose proof (HC (2 * k + 0)). pose proof (HC (2 * k + 1)).
    destruct (2 * k + 0 <? n), (2 * k + 1 <? n); lia.
  - change (2 ^ Z.of_nat (8 * 0))%Z with 1%Z. pose proof (HC (1 * k + 0)). destruct (1 * k + 0 <? n); lia.
Qed.

Lemma input_ok_side A rm scale zp thr x : input_ok A rm scale zp thr x ->
  (rm = RM_STOCHASTIC -> threshold thr /\ (Z.abs zp <= 2 ^ 62)%Z) /\ (rm = RM_NEAREST -> (Z.abs zp <= 2 ^ 22)%Z).
Proof. destruct rm; cbn; intros H; split; try discriminate; tauto. Qed.

Lemma quantize_codes A nt oaddr din dq scale zp rm thr inm pk r :
  buffers_ok nt din dq inm pk -> good_scale scale ->
  (rm = RM_STOCHASTIC -> threshold thr /\ (Z.abs zp <= 2 ^ 62)%Z) -> (rm = RM_NEAREST -> (Z.abs zp <= 2 ^ 22)%Z) ->
  (forall i, i < numel din (length inm) -> input_ok A rm scale zp thr (elem_at din inm i)) ->
  returns inm pk (quantize_call A nt oaddr din dq scale zp rm thr inm pk) r ->
  exists p, r = Ok p /\ length p = length pk /\ Forall is_byte p /\
    forall i, i < numel din (length inm) -> code_at dq p i = expected_code rm dq scale zp thr (elem_at din inm i).
Proof.
  intros HB Hsc Hst Hne HI HR. pose proof HB as (Hfp & Hq & Hb & Hl & HS).
  destruct (C02_layout _ _ _ _ _ _ _ _ _ _ _ _ HB Hsc Hst Hne HI HR) as (o & -> & HL & HBy & HC & _).
  exists o. split; auto. split; auto. split; auto.
  apply Forall_forall. intros x Hx. apply (In_nth _ _ 0%Z) in Hx. destruct Hx as (k & Hk & <-). rewrite HBy by auto.
  apply packed_byte_range; auto. intros; apply expected_range; auto.
Qed.

Lemma code_at_app d m e i : quant_type d -> i < codes_per_byte d * length m -> code_at d (m ++ e) i = code_at d m i.
Proof.
  intros Hd Hi. unfold code_at. cbv zeta. rewrite app_nth1; auto.
  destruct Hd as [->|[->| ->]]; unfold codes_per_byte in Hi; cbn [bit_size] in *; change (8 / 2) with 4 in *; change (8 / 4) with 2 in *; change (8 / 8) with 1 in *; lia.
Qed.

(** ** C14: quantize, then dequantize (possibly on another kernel set, with other parameters): each element is decoded
    from the code that quantize computed for the same index.  [extra] is whatever lies behind the packed buffer. *)
Theorem C14_codes_round_trip A A' nt nt' oaddr oaddr' din dq scale scale' zp zp' rm thr inm pk p extra outm r :
  buffers_ok nt din dq inm pk -> good_scale scale ->
  (rm = RM_STOCHASTIC -> threshold thr /\ (Z.abs zp <= 2 ^ 62)%Z) -> (rm = RM_NEAREST -> (Z.abs zp <= 2 ^ 22)%Z) ->
  (forall i, i < numel din (length inm) -> input_ok A rm scale zp thr (elem_at din inm i)) ->
  returns inm pk (quantize_call A nt oaddr din dq scale zp rm thr inm pk) (Ok p) ->
  numel DT_F32 (length outm) = numel din (length inm) -> sizes_ok (length outm) (numel DT_F32 (length outm)) nt' ->
  Forall is_byte extra -> extra <> [] -> (Z.abs zp' <= 2 ^ 30)%Z ->
  returns (p ++ extra) outm (dequantize_call A' nt' oaddr' dq DT_F32 scale' zp' RO_SET (length p) outm) r ->
  exists o, r = Ok o /\ length o = length outm /\
    forall i, i < numel din (length inm) ->
      f32_at o i = fmul (f32_of_Z (expected_code rm dq scale zp thr (elem_at din inm i) - zp')) scale'.
Proof.
  intros HB Hsc Hst Hne HI HR Hn HS' He Hne' Hz' HR'.
  destruct (quantize_codes _ _ _ _ _ _ _ _ _ _ _ _ HB Hsc Hst Hne HI HR) as (p' & E & HL & Hby & HC). injection E as <-.
  pose proof HB as (Hfp & Hq & Hb & Hl & HS).
  assert (HB' : dq_buffers nt' dq DT_F32 (p ++ extra) (length p) outm).
  { repeat split; auto; try (left; reflexivity); try apply HS'.
    - apply Forall_app; auto.
    - rewrite HL, Hl, Hn. reflexivity.
    - rewrite app_length. lia.
    - intros _ _ _ _. rewrite app_length. destruct extra; [congruence|cbn; lia]. }
  destruct (C07_dequantize_set_f32 _ _ _ _ _ _ _ _ _ _ HB' Hz' HR') as (o & -> & Lo & Ho & _).
  exists o. split; auto. split; auto. intros i Hi. rewrite Ho by (rewrite Hn; auto). rewrite code_at_app, HC; auto.
  rewrite HL, Hl, codes_per_byte_q, bytes_for_per_byte by auto. destruct Hq as [->|[->| ->]]; cbn [per_byte]; lia.
Qed.

(** ** C13: zero *)
Lemma quant_code_zero d s zp : (0 <= zp <= code_max d)%Z -> quant_code d s zp 0 = zp.
Proof.
  intros H. unfold quant_code. rewrite scaled_0. change 0%R with (IZR 0). rewrite rha_IZR. unfold clamp. lia.
Qed.
Lemma stoch_code_zero d s zp t : (0 <= t)%R -> (0 <= zp <= code_max d)%Z -> stoch_code d s zp t 0 = zp.
Proof.
  intros Ht H. unfold stoch_code, stoch_round. rewrite scaled_0, Rabs_R0. rewrite (Zfloor_IZR 0). cbv zeta.
  rewrite Rlt_bool_false by (cbn; lra). rewrite Rlt_bool_false by lra. unfold clamp. lia.
Qed.
Theorem C13_zero_quantizes_to_zero_point A nt oaddr din dout scale zp rm thr inm outm r :
  buffers_ok nt din dout inm outm -> good_scale scale -> (0 <= zp <= code_max dout)%Z -> (rm = RM_STOCHASTIC -> threshold thr) ->
  (forall i, i < numel din (length inm) -> input_ok A rm scale zp thr (elem_at din inm i)) ->
  returns inm outm (quantize_call A nt oaddr din dout scale zp rm thr inm outm) r ->
  exists o, r = Ok o /\ forall i, i < numel din (length inm) -> val (elem_at din inm i) = 0%R -> code_at dout o i = zp.
Proof.
  intros HB Hsc Hz Ht HI HR. pose proof HB as (_ & Hq & _). pose proof (code_max_range dout Hq).
  assert (H1 : rm = RM_STOCHASTIC -> threshold thr /\ (Z.abs zp <= 2 ^ 62)%Z) by (intros; split; auto; lia).
  assert (H2 : rm = RM_NEAREST -> (Z.abs zp <= 2 ^ 22)%Z) by (intros; lia).
  destruct (quantize_codes _ _ _ _ _ _ _ _ _ _ _ _ HB Hsc H1 H2 HI HR) as (o & -> & _ & _ & HC).
  exists o. split; auto. intros i Hi V. rewrite HC by auto. unfold expected_code. rewrite V. destruct rm.
  - apply quant_code_zero; auto.
  - apply stoch_code_zero; auto. destruct (Ht eq_refl) as [_ [? _]]. auto.
Qed.
Lemma dequant_zero scale zp : finite scale -> Bsign 24 128 scale = false -> dequant_value scale zp zp = f_zero.
Proof.
  intros Hf Hs. unfold dequant_value. rewrite Z.sub_diag. change (f32_of_Z 0) with (B754_zero 24 128 false).
  unfold finite in Hf. destruct scale as [s|s|s pl Hpl|s m e Hb]; try discriminate; cbn in Hs; subst s; reflexivity.
Qed.
(** code = zero point dequantizes to +0 (positive finite scale), on every kernel set *)
Theorem C13_zero_point_dequantizes_to_zero A nt oaddr din scale zp inm in_size outm r :
  dq_buffers nt din DT_F32 inm in_size outm -> (Z.abs zp <= 2 ^ 30)%Z -> finite scale -> (0 < val scale)%R ->
  returns inm outm (dequantize_call A nt oaddr din DT_F32 scale zp RO_SET in_size outm) r ->
  exists o, r = Ok o /\ forall i, i < numel DT_F32 (length outm) -> code_at din inm i = zp -> slice (4 * i) 4 o = [0; 0; 0; 0]%Z.
Proof.
  intros HB Hz Hf Hp HR. assert (Hno : RO_SET = RO_ADD -> finite scale) by discriminate.
  destruct (dequantize_f32 _ _ _ _ _ _ _ _ _ _ _ HB Hz Hno HR) as (o & -> & _ & HE & _). exists o. split; auto.
  intros i Hi Hc. rewrite HE by auto. rewrite Hc.
  assert (Hs : Bsign 24 128 scale = false).
  { unfold finite, val in *. destruct scale as [s|s|s pl Hpl|s m e Hb]; try discriminate; cbn in *; [lra|]. destruct s; auto. exfalso.
    revert Hp. apply Rle_not_lt. apply Rlt_le, F2R_lt_0. cbn. lia. }
  assert (D := dequant_zero scale zp Hf Hs).
  destruct (reaches din RO_SET (numel DT_F32 (length outm)) i) eqn:ER.
  - rewrite D. reflexivity.
  - exfalso. revert ER. unfold reaches. destruct din; try discriminate. destruct (_ <? _); discriminate.
Qed.

(** ** C28: the fused call *)
Definition fused_call (A : arch) (nt : nat) (oaddr : Z) (dt dq : dtype) (scale : f32) (zp : Z) (rm : round_mode_t) (op : reduce_op) (thr : f32)
    (inm outm : mem) : res (list (list action)) :=
  quantize_dequantize_fused A nt oaddr (Z.of_nat (length inm)) dt (Z.of_nat (length outm)) dq scale zp rm op thr.

Lemma quant_step_ok rm dq thr scale zp x : quant_type dq -> good_scale scale -> quantizable scale x -> (rm = RM_STOCHASTIC -> threshold thr) ->
  (Z.abs zp <= 2 ^ 62)%Z ->
  quant_step_scalar rm (limit_max dq) (thr_of rm thr) (fdiv f_one scale) zp x = Ok (expected_code rm dq scale zp thr x).
Proof.
  intros Hq Hs Hx Ht Hz. assert (E : limit_max dq = code_max dq) by (destruct Hq as [->|[->| ->]]; reflexivity). rewrite E.
  pose proof (code_max_range dq Hq). destruct rm; cbn [quant_step_scalar thr_of expected_code].
  - apply q_nearest_i64_ok; auto; lia.
  - apply q_stochastic_ok; auto; lia.
Qed.

Theorem C28_fused_f32 A nt oaddr dq scale zp rm op thr inm outm r :
  let n := numel DT_F32 (length outm) in
  quant_type dq -> length inm = length outm -> sizes_ok (length outm) n nt -> good_scale scale -> (Z.abs zp <= 2 ^ 62)%Z ->
  (rm = RM_STOCHASTIC -> threshold thr) -> (forall i, i < n -> quantizable scale (f32_at inm i)) ->
  returns inm outm (fused_call A nt oaddr DT_F32 dq scale zp rm op thr inm outm) r ->
  exists o, r = Ok o /\ length o = length outm /\
    (forall i, i < n -> let v := fmul (f32_of_Z (expected_code rm dq scale zp thr (f32_at inm i) - zp)) scale in
       slice (4 * i) 4 o = le_bytes 4 (bits_of_f32 (match op with RO_SET => v | RO_ADD => fadd (f32_at outm i) v end))) /\
    (forall k, 4 * n <= k -> nth k o 0%Z = nth k outm 0%Z).
Proof.
  intros n Hq HL HS Hsc Hz Ht HX HR. unfold fused_call in HR. rewrite HL in HR.
  set (E := fun i => le_bytes 4 (bits_of_f32 (
       match op with
       | RO_SET => dequant_value scale zp (expected_code rm dq scale zp thr (f32_at inm i))
       | RO_ADD => fadd (f32_at outm i) (dequant_value scale zp (expected_code rm dq scale zp thr (f32_at inm i)))
       end))).
  assert (EL : forall i, i < n -> length (E i) = 4) by (intros; apply le_bytes_length).
  pose proof (numel_le DT_F32 (length outm) ltac:(left; reflexivity)) as Hn. change (esize DT_F32) with 4 in *. fold n in Hn.
  assert (HR' := fused_core A nt oaddr (length outm) DT_F32 dq scale zp rm op thr inm outm E r ltac:(left; reflexivity) Hq HS ltac:(lia) ltac:(lia)).
  change (esize DT_F32) with 4 in HR'. cbv zeta in HR'. fold n in HR'.
  apply HR' in HR; auto; clear HR'.
  - rewrite HR. eexists. split; [reflexivity|]. rewrite app_length, map_length, seq_length, skipn_length. split; [lia|]. split.
    + intros i Hi'. cbv zeta. rewrite slice_byteE; auto. lia.
    + intros k Hk. rewrite app_nth2 by (rewrite map_length, seq_length; lia). rewrite map_length, seq_length.
      rewrite nth_skipn. f_equal. lia.
  - intros i Hi'. unfold requant_elem. cbn [ld]. change (ld_f32 (slice (4 * i) 4 inm)) with (f32_at inm i).
    rewrite quant_step_ok by auto. cbn [bind]. pose proof (expected_range rm dq scale zp thr (f32_at inm i) Hq). pose proof (code_max_range dq Hq).
    unfold dq_i64, i64. rewrite in_i64_ok by lia. cbn [bind]. unfold put_f32, E, dequant_value. destruct op; reflexivity.
Qed.

(** The fused call gives the same bytes as quantize followed by dequantize.  (For uint2 with ADD the element count must be
    a multiple of four: otherwise dequantize itself is wrong, C08.) *)
Theorem C28_fused_equals_two_calls_f32 A A1 A2 nt nt1 nt2 oaddr oaddr1 oaddr2 dq scale zp rm op thr inm pk p extra outm r1 r2 :
  let n := numel DT_F32 (length outm) in
  buffers_ok nt1 DT_F32 dq inm pk -> length inm = length outm -> sizes_ok (length outm) n nt -> sizes_ok (length outm) n nt2 ->
  good_scale scale -> finite scale -> (Z.abs zp <= 2 ^ 22)%Z -> (rm = RM_STOCHASTIC -> threshold thr) ->
  (forall i, i < n -> input_ok A1 rm scale zp thr (f32_at inm i)) ->
  (dq = DT_UINT2 -> op = RO_ADD -> n mod 4 = 0) ->
  Forall is_byte extra -> extra <> [] ->
  returns inm outm (fused_call A nt oaddr DT_F32 dq scale zp rm op thr inm outm) r1 ->
  returns inm pk (quantize_call A1 nt1 oaddr1 DT_F32 dq scale zp rm thr inm pk) (Ok p) ->
  returns (p ++ extra) outm (dequantize_call A2 nt2 oaddr2 dq DT_F32 scale zp op (length p) outm) r2 ->
  r1 = r2 /\ exists o, r1 = Ok o.
Proof.
  intros n HB HL HS HS2 Hsc Hfs Hz Ht HI Hu2 He Hne HF HQ HD.
  assert (Hn : numel DT_F32 (length inm) = n) by (unfold n; rewrite HL; reflexivity).
  pose proof HB as (Hfp & Hq & Hb & Hl & HS1).
  assert (Hz30 : (Z.abs zp <= 2 ^ 30)%Z) by lia. assert (Hz62 : (Z.abs zp <= 2 ^ 62)%Z) by lia.
  assert (H1 : rm = RM_STOCHASTIC -> threshold thr /\ (Z.abs zp <= 2 ^ 62)%Z) by (intros; split; auto; lia).
  assert (HI' : forall i, i < numel DT_F32 (length inm) -> input_ok A1 rm scale zp thr (elem_at DT_F32 inm i)) by (rewrite Hn; exact HI).
  destruct (quantize_codes _ _ _ _ _ _ _ _ _ _ _ _ HB Hsc H1 (fun _ => Hz) HI' HQ) as (p' & E & HLp & Hby & HC). injection E as <-.
  assert (HB' : dq_buffers nt2 dq DT_F32 (p ++ extra) (length p) outm).
  { repeat split; auto; try (left; reflexivity); try apply HS2.
    - apply Forall_app; auto.
    - rewrite HLp, Hl, Hn. reflexivity.
    - rewrite app_length. lia.
    - intros _ _ _ _. rewrite app_length. destruct extra; [congruence|cbn; lia]. }
  destruct (dequantize_f32 _ _ _ _ _ _ _ _ _ _ _ HB' Hz30 (fun _ => Hfs) HD) as (o2 & -> & L2 & E2 & F2).
  assert (HX : forall i, i < n -> quantizable scale (f32_at inm i)).
  { intros i Hi. specialize (HI i Hi). destruct rm; cbn [input_ok] in HI; unfold nearest_ok in HI; tauto. }
  destruct (C28_fused_f32 _ _ _ _ _ _ _ _ _ _ _ _ Hq HL HS Hsc Hz62 Ht HX HF) as (o1 & -> & L1 & E1 & F1).
  split; [|eauto]. f_equal. fold n in E2, F2.
  assert (G : forall i, i < n -> slice (4 * i) 4 o1 = slice (4 * i) 4 o2).
  { intros i Hi. rewrite E1, E2 by auto. cbv zeta.
    rewrite code_at_app, HC; auto; [|rewrite Hn; auto|rewrite HLp, Hl, Hn, codes_per_byte_q, bytes_for_per_byte by auto; destruct Hq as [->|[->| ->]]; cbn [per_byte]; lia].
    cbn [elem_at].
    assert (Hr : reaches dq op n i = op).
    { unfold reaches. destruct dq; auto. destruct op; [destruct (_ <? _); auto|]. specialize (Hu2 eq_refl eq_refl).
      destruct (Nat.ltb_spec i (4 * (n / 4))); auto. lia. }
    rewrite Hr. reflexivity. }
  apply list_ext; [lia|]. intros k Hk. destruct (Nat.lt_ge_cases k (4 * n)) as [L|L].
  - specialize (G (k / 4) ltac:(lia)). apply (f_equal (fun l => nth (k mod 4) l 0%Z)) in G.
    rewrite !nth_slice in G by lia. replace (4 * (k / 4) + k mod 4) with k in G by lia. exact G.
  - rewrite F1, F2 by auto. reflexivity.
Qed.
