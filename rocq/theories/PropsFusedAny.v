(** PropsFusedAny.v -- C28 and C19 without conditions on the data: the fused call for every float, scale and zero point; bf16 inputs and their widened
    f32 copies for every float, scale and zero point. *)
From Coq Require Import ZArith List Lia Bool Arith ZifyBool ZifyNat Reals Lra.
From Flocq Require Import Core Binary Bits.
From Verif Require Import Base Floats Simd Dtypes Spec ApiSpec QuantKernels DequantKernels ExecFacts FloatFacts QuantFacts QuantKernelFacts QuantGenericFacts DequantFacts Context ContextFacts Api
  QuantizeFacts DequantizeFacts NoAbort ScalarUB PropsQuantize Schedule PropsMemory FloatFacts2 FloatFacts3 PropsDequantize PropsRoundTrip Bf16Spec Bf16Facts PropsBf16 PathSpec PropsPaths PropsExtreme RoundTripFacts PropsIdempotent PropsBadScale PropsRoundTripTypes
  AnyInputSpec PropsAnyInput PropsAnyThreads PropsBf16Zero QuantLanes LoopFacts.
Import ListNotations.

(** ** Vocabulary *)
(** The code the fused call computes for one element: always int64 arithmetic with the full zero point, whatever the types and the rounding mode.
    [None]: the float-to-integer conversion or the addition overflows. *)
Definition fused_code (dq : dtype) (rm : round_mode_t) (thr scale : f32) (zp : Z) (x : f32) : option Z :=
  let p := product scale x in
  let k := match rm with RM_NEAREST => round_half_away (val p) | RM_STOCHASTIC => stoch_round (val thr) (val p) end in
  if is_finite 24 128 p && ((- 2 ^ 63 <=? k) && (k <? 2 ^ 63))%Z && ((- 2 ^ 63 <=? k + zp) && (k + zp <? 2 ^ 63))%Z
  then Some (clamp 0 (code_max dq) (k + zp)) else None.
(** The integer that is multiplied by the scale: code minus zero point; [None] also if that subtraction overflows int64. *)
Definition fused_integer (dq : dtype) (rm : round_mode_t) (thr scale : f32) (zp : Z) (x : f32) : option Z :=
  match fused_code dq rm thr scale zp x with
  | Some c => if (c - zp <? 2 ^ 63)%Z then Some (c - zp)%Z else None
  | None => None
  end.
(** The bytes stored in one element for the integer [k]. *)
Definition fused_bytes (dt : dtype) (op : reduce_op) (scale : f32) (k : Z) (outm : mem) (i : nat) : mem :=
  match dt with
  | DT_BF16 => let v := bf16_mul (bf16_of_f32 (f32_of_Z k)) (bf16_of_f32 scale) in
               le_bytes 2 (match op with RO_SET => v | RO_ADD => bf16_add (bf16_at outm i) v end)
  | _ => let v := fmul (f32_of_Z k) scale in
         le_bytes 4 (bits_of_f32 (match op with RO_SET => v | RO_ADD => fadd (f32_at outm i) v end))
  end.

Lemma fused_code_scalar dq rm thr scale zp x : fused_code dq rm thr scale zp x =
  match scalar_result DT_F32 DT_UINT2 rm thr scale zp x with
  | Some _ => Some (clamp 0 (code_max dq) ((match rm with RM_NEAREST => round_half_away (val (product scale x)) | RM_STOCHASTIC => stoch_round (val thr) (val (product scale x)) end) + zp))
  | None => None end.
Proof.
  unfold fused_code, scalar_result. cbv zeta. assert (int_limit DT_F32 DT_UINT2 rm = 2 ^ 63)%Z as -> by (destruct rm; reflexivity).
  change (2 ^ 63 =? 2 ^ 31)%Z with false. cbv iota. destruct (_ && _ && _); reflexivity.
Qed.

Lemma fused_step_any dq rm thr scale zp x : quant_type dq -> (rm = RM_STOCHASTIC -> threshold thr) ->
  quant_step_scalar rm (limit_max dq) (thr_of rm thr) (fdiv f_one scale) zp x = match fused_code dq rm thr scale zp x with Some c => Ok c | None => UB end.
Proof.
  intros Hq Ht. pose proof (code_max_range dq Hq) as Hm. assert (E : limit_max dq = code_max dq) by (destruct Hq as [->|[->| ->]]; reflexivity). rewrite E. clear E.
  unfold fused_code. cbv zeta. set (p := product scale x). set (k := match rm with RM_NEAREST => _ | RM_STOCHASTIC => _ end).
  assert (G : quant_step_scalar rm (code_max dq) (thr_of rm thr) (fdiv f_one scale) zp x =
      (q <- (if is_finite 24 128 p then i64 k else UB) ;; integral <- i64 (q + zp) ;; Ok (clampZ 0 (code_max dq) integral))).
  { destruct rm; cbn [quant_step_scalar thr_of].
    - unfold q_nearest_i64, f32_to_i64. fold (product scale x). fold p. destruct (is_finite 24 128 p) eqn:F.
      + rewrite fround_Z by exact F. reflexivity.
      + rewrite f_to_Z_nonfinite; [reflexivity|]. apply fround_nonfinite. unfold finite. congruence.
    - rewrite q_stochastic_float. fold (product scale x). fold p. unfold f32_to_i64. destruct (is_finite 24 128 p) eqn:F.
      + destruct (stoch_float_ok thr p F (Ht eq_refl)) as [Ff Ef]. rewrite f_to_Z_finite by auto. rewrite Ef, Ztrunc_IZR. reflexivity.
      + rewrite f_to_Z_nonfinite; [reflexivity|]. apply stoch_float_nonfinite. unfold finite. congruence. }
  rewrite G. clear G. clearbody k. destruct (is_finite 24 128 p); cbn [andb bind]; [|reflexivity]. unfold i64, in_i64. change (2 ^ 63)%Z with 9223372036854775808%Z.
  repeat match goal with |- context [if ?b then _ else _] => let E := fresh "E" in destruct b eqn:E; cbn [bind] end; try reflexivity; try (exfalso; lia).
  rewrite clampZ_clamp by lia. reflexivity.
Qed.

Lemma fused_code_range dq rm thr scale zp x c : quant_type dq -> fused_code dq rm thr scale zp x = Some c -> (0 <= c <= code_max dq)%Z.
Proof.
  intros Hq. pose proof (code_max_range dq Hq) as Hm. unfold fused_code. cbv zeta. destruct (_ && _ && _); [|discriminate]. intros E. injection E as <-.
  unfold clamp. lia.
Qed.

Lemma fused_elem_any dt dq scale zp rm op thr inm outm i : float_type dt -> quant_type dq -> (rm = RM_STOCHASTIC -> threshold thr) -> (- 2 ^ 63 <= zp < 2 ^ 63)%Z ->
  requant_elem dt dq rm op scale (thr_of rm thr) zp (slice (esize dt * i) (esize dt) inm) (slice (esize dt * i) (esize dt) outm) =
  match fused_integer dq rm thr scale zp (elem_at dt inm i) with Some k => Ok (fused_bytes dt op scale k outm i) | None => UB end.
Proof.
  intros Hfp Hq Ht Hz. unfold requant_elem. rewrite ld_elem by auto. rewrite fused_step_any by auto. unfold fused_integer.
  destruct (fused_code dq rm thr scale zp (elem_at dt inm i)) as [c|] eqn:E; [|reflexivity]. apply fused_code_range in E; auto.
  pose proof (code_max_range dq Hq) as Hm. cbn [bind]. unfold dq_i64, dq_i64_bf16, i64, in_i64. change (2 ^ 63)%Z with 9223372036854775808%Z in *.
  destruct Hfp as [->| ->]; destruct (Z.ltb_spec (c - zp) 9223372036854775808) as [L|L];
    match goal with |- context [(if ?b then Ok _ else UB)] => destruct b eqn:B end; cbn [bind]; try (exfalso; clear - L B E Hm Hz; lia); try reflexivity;
    unfold fused_bytes, put_f32, put_bf16v; destruct op; reflexivity.
Qed.

(** ** C28, complete: every element type, quantized type, scale (zero, negative, infinite, NaN), int64 zero point, rounding mode, reduce operation, CPU,
    thread count and schedule.  One element without a result makes the call undefined; otherwise exactly these bytes are stored. *)
Theorem C28_complete A nt oaddr dt dq scale zp rm op thr inm outm r :
  float_type dt -> quant_type dq -> length inm = length outm -> sizes_ok (length outm) (numel dt (length outm)) nt ->
  (- 2 ^ 63 <= zp < 2 ^ 63)%Z -> (rm = RM_STOCHASTIC -> threshold thr) ->
  let n := numel dt (length outm) in
  let k i := fused_integer dq rm thr scale zp (elem_at dt inm i) in
  returns inm outm (fused_call A nt oaddr dt dq scale zp rm op thr inm outm) r ->
  ((exists i, i < n /\ k i = None) -> r = UB) /\
  ((forall i, i < n -> k i <> None) ->
   exists o, r = Ok o /\ length o = length outm /\
     (forall i c, i < n -> k i = Some c -> slice (stride dt * i) (stride dt) o = fused_bytes dt op scale c outm i) /\
     (forall j, stride dt * n <= j -> nth j o 0%Z = nth j outm 0%Z)).
Proof.
  intros Hfp Hq HL HS Hz Ht n k HR. split.
  - intros (i & Hi & HN). unfold fused_call in HR. rewrite HL in HR.
    rewrite (fused_jobs A nt oaddr (length outm) dt dq scale zp rm op thr Hfp Hq HS) in HR.
    apply returns_jobs in HR. destruct HR as (tr & HI & ->). fold n in HI.
    assert (Hnt : nt > 0) by (destruct HS; lia).
    destruct (owner_exists 1 n nt i ltac:(lia) Hnt Hi) as (t & Htt & Hti).
    eapply run_trace_ub with (a := shift_action (esize dt * part_bound 1 n nt t) (esize dt * part_bound 1 n nt t) (ract dt dq rm op scale (thr_of rm thr) zp (i - part_bound 1 n nt t))).
    + eapply interleave_Forall; [exact HI|]. apply Forall_forall. intros l Hl. apply in_map_iff in Hl. destruct Hl as (u & <- & _).
      unfold f_job. destruct (_ <=? _); [constructor|]. apply Forall_map. eapply Forall_impl; [|apply requant_generic_quiet]. intros x. apply shift_quiet.
    + eapply interleave_In; [exact HI|apply in_map, in_seq; split; [apply Nat.le_0_l|exact Htt]|].
      unfold f_job. rewrite (proj2 (Nat.leb_gt _ _)) by lia. apply in_map. apply requant_actions. lia.
    + apply ub_shift. intros o. cbn [a_fn ract a_ioff a_ilen]. unfold requant_elem. rewrite ld_elem by auto. rewrite elem_at_skipn by auto.
      replace (part_bound 1 n nt t + (i - part_bound 1 n nt t)) with i by lia. rewrite fused_step_any by auto.
      unfold k, fused_integer in HN. destruct (fused_code dq rm thr scale zp (elem_at dt inm i)) as [c|] eqn:E; [|reflexivity].
      apply fused_code_range in E; auto. pose proof (code_max_range dq Hq) as Hm. cbn [bind].
      destruct (Z.ltb_spec (c - zp) (2 ^ 63)) as [L|L]; [discriminate|].
      unfold dq_i64, dq_i64_bf16, i64, in_i64. change (2 ^ 63)%Z with 9223372036854775808%Z in *.
      destruct Hfp as [->| ->]; match goal with |- context [(if ?b then Ok _ else UB)] => destruct b eqn:B end; cbn [bind]; try reflexivity; exfalso; clear - L B; lia.
  - intros HI. set (E := fun i => match k i with Some c => fused_bytes dt op scale c outm i | None => [] end).
    assert (HE : forall i, i < n -> exists c, k i = Some c /\ E i = fused_bytes dt op scale c outm i).
    { intros i Hi. specialize (HI i Hi). unfold E. destruct (k i) as [c|]; [eauto|congruence]. }
    assert (EL : forall i, i < n -> length (E i) = esize dt).
    { intros i Hi. destruct (HE i Hi) as (c & _ & ->). unfold fused_bytes. destruct Hfp as [->| ->]; apply le_bytes_length. }
    pose proof (numel_le dt (length outm) Hfp) as Hn. fold n in Hn.
    unfold fused_call in HR. rewrite HL in HR.
    assert (HR' := fused_core A nt oaddr (length outm) dt dq scale zp rm op thr inm outm E r Hfp Hq HS ltac:(lia) ltac:(lia)).
    cbv zeta in HR'. fold n in HR'. apply HR' in HR; auto; clear HR'.
    + rewrite HR. eexists. split; [reflexivity|]. rewrite app_length, map_length, seq_length, skipn_length. split; [lia|]. split.
      * intros i c Hi' Hc. change (stride dt) with (esize dt). rewrite slice_byteE; auto; [|destruct Hfp as [->| ->]; cbn; lia].
        destruct (HE i Hi') as (c' & Ec & ->). congruence.
      * intros j Hk. rewrite app_nth2 by (rewrite map_length, seq_length; exact Hk). rewrite map_length, seq_length.
        rewrite nth_skipn. f_equal. change (stride dt) with (esize dt) in Hk. lia.
    + intros i Hi'. rewrite fused_elem_any by auto. destruct (HE i Hi') as (c & Ec & ->). unfold k in Ec. rewrite Ec. reflexivity.
Qed.

(** ** C28 for all data, f32, stochastic rounding: the fused call is undefined exactly when the quantize call is, and otherwise equals quantize followed by
    dequantize.  (Only the dequantize half restricts the zero point, C07, and the reduce operation, C08.) *)
Theorem C28_stochastic_any_data A A1 A2 nt nt1 nt2 oaddr oaddr1 oaddr2 dq scale zp op thr inm pk extra outm r0 r1 r2 :
  let n := numel DT_F32 (length outm) in
  buffers_ok nt1 DT_F32 dq inm pk -> length inm = length outm -> sizes_ok (length outm) n nt -> sizes_ok (length outm) n nt2 ->
  (Z.abs zp <= 2 ^ 30)%Z -> threshold thr -> (op = RO_ADD -> finite scale) -> (dq = DT_UINT2 -> op = RO_ADD -> n mod 4 = 0) ->
  Forall is_byte extra -> extra <> [] ->
  returns inm outm (fused_call A nt oaddr DT_F32 dq scale zp RM_STOCHASTIC op thr inm outm) r1 ->
  returns inm pk (quantize_call A1 nt1 oaddr1 DT_F32 dq scale zp RM_STOCHASTIC thr inm pk) r0 ->
  (forall p, r0 = Ok p -> returns (p ++ extra) outm (dequantize_call A2 nt2 oaddr2 dq DT_F32 scale zp op (length p) outm) r2) ->
  (r0 = UB /\ r1 = UB) \/ (exists p o, r0 = Ok p /\ r1 = Ok o /\ r2 = Ok o).
Proof.
  intros n HB HL HS HS2 Hz Ht Hfs Hu2 He Hne HF HQ HD.
  assert (Hn : numel DT_F32 (length inm) = n) by (unfold n; rewrite HL; reflexivity).
  pose proof HB as (Hfp & Hq & Hb & Hl & HS1). pose proof (code_max_range dq Hq) as Hm.
  assert (Hz' : (- 2 ^ 63 <= zp < 2 ^ 63)%Z) by (clear - Hz; lia).
  destruct (C36_complete _ _ _ _ _ _ _ _ _ _ _ _ HB (fun _ => Ht) Hz' HQ) as [QU QO].
  destruct (C28_complete _ _ _ _ _ _ _ _ _ _ _ _ _ Hfp Hq HL HS Hz' (fun _ => Ht) HF) as [FU FO]. fold n in FU, FO. rewrite Hn in QU, QO.
  assert (K : forall i, fused_integer dq RM_STOCHASTIC thr scale zp (elem_at DT_F32 inm i) =
     match quantize_result A1 nt1 oaddr1 DT_F32 dq RM_STOCHASTIC thr scale zp inm i with Some c => Some (c - zp)%Z | None => None end).
  { intros i. unfold fused_integer, fused_code, quantize_result, scalar_result. cbv zeta.
    change (int_limit DT_F32 dq RM_STOCHASTIC) with (2 ^ 63)%Z. change (2 ^ 63 =? 2 ^ 31)%Z with false. cbv iota.
    destruct (_ && _ && _); [|reflexivity]. rewrite (proj2 (Z.ltb_lt _ _)); [reflexivity|]. unfold clamp. clear - Hz Hm. lia. }
  destruct (some_or_none n (quantize_result A1 nt1 oaddr1 DT_F32 dq RM_STOCHASTIC thr scale zp inm)) as [(i & Hi & N)|SO].
  - left. split; [apply QU; eauto|apply FU]. exists i. split; auto. rewrite K, N. reflexivity.
  - right. destruct (QO SO) as (p & -> & Lp & C & B). specialize (HD p eq_refl).
    destruct FO as (o1 & -> & L1 & E1 & F1).
    { intros i Hi. rewrite K. specialize (SO i Hi). destruct (quantize_result _ _ _ _ _ _ _ _ _ _ _); congruence. }
    assert (Hby : Forall is_byte p).
    { destruct (C12_any_data _ _ _ _ _ _ _ _ _ _ _ _ HB (fun _ => Ht) Hz' HQ) as [X|(o & X & _ & Hp & _)]; [discriminate|]. injection X as ->. exact Hp. }
    assert (HB' : dq_buffers nt2 dq DT_F32 (p ++ extra) (length p) outm).
    { repeat split; auto; try (left; reflexivity); try apply HS2.
      - apply Forall_app; auto.
      - rewrite Lp, Hl, Hn. reflexivity.
      - rewrite app_length. lia.
      - intros _ _ _ _. rewrite app_length. destruct extra; [congruence|cbn; lia]. }
    destruct (dequantize_f32 _ _ _ _ _ _ _ _ _ _ _ HB' Hz Hfs HD) as (o2 & -> & L2 & E2 & F2). fold n in E2, F2.
    exists p, o1. split; auto. split; auto. f_equal. change (stride DT_F32) with 4 in *.
    assert (G : forall i, i < n -> slice (4 * i) 4 o2 = slice (4 * i) 4 o1).
    { intros i Hi. rewrite E2 by auto. specialize (C i Hi). rewrite (E1 i (code_at dq p i - zp)%Z Hi) by (rewrite K, C; reflexivity).
      rewrite code_at_app; auto; [|rewrite Lp, Hl, Hn, codes_per_byte_q, bytes_for_per_byte by auto; clear - Hi Hq; destruct Hq as [->|[->| ->]]; cbn [per_byte]; lia].
      assert (Hr : reaches dq op n i = op).
      { unfold reaches. destruct dq; auto. destruct op; [destruct (_ <? _); auto|]. specialize (Hu2 eq_refl eq_refl).
        rewrite (proj2 (Nat.ltb_lt _ _)); auto. clear - Hi Hu2. pose proof (Nat.div_mod n 4). lia. }
      rewrite Hr. unfold fused_bytes, dequant_value. destruct op; reflexivity. }
    apply list_ext; [congruence|]. intros j Hj. destruct (Nat.lt_ge_cases j (4 * n)) as [Hlt|Hge]; [|rewrite F1, F2 by auto; reflexivity].
    assert (Hi : j / 4 < n) by (apply Nat.div_lt_upper_bound; lia). specialize (G _ Hi).
    pose proof (Nat.div_mod j 4 ltac:(lia)) as D. pose proof (Nat.mod_upper_bound j 4 ltac:(lia)) as U. set (d := j / 4) in *. set (m := j mod 4) in *. clearbody d m.
    rewrite D. rewrite <- (nth_slice (4 * d) 4 o2 m 0%Z), <- (nth_slice (4 * d) 4 o1 m 0%Z) by lia. rewrite G. reflexivity.
Qed.

(** ** C19 for all data *)
(** the outcome of a call is a function of its per-element results, whatever the input type *)
Lemma outcome_by_results A A' nt nt' oaddr oaddr' din din' dout scale zp rm thr inm inm' outm outm' r r' :
  buffers_ok nt din dout inm outm -> buffers_ok nt' din' dout inm' outm' -> (rm = RM_STOCHASTIC -> threshold thr) -> (- 2 ^ 63 <= zp < 2 ^ 63)%Z ->
  numel din (length inm) = numel din' (length inm') ->
  (forall i, i < numel din (length inm) ->
     quantize_result A nt oaddr din dout rm thr scale zp inm i = quantize_result A' nt' oaddr' din' dout rm thr scale zp inm' i) ->
  returns inm outm (quantize_call A nt oaddr din dout scale zp rm thr inm outm) r ->
  returns inm' outm' (quantize_call A' nt' oaddr' din' dout scale zp rm thr inm' outm') r' -> r = r'.
Proof.
  intros HB HB' Ht Hz En E HR HR'. pose proof HB as (Hf & Hq & _ & L & _). pose proof HB' as (_ & _ & _ & L' & _).
  destruct (C36_complete _ _ _ _ _ _ _ _ _ _ _ _ HB Ht Hz HR) as [U1 O1]. destruct (C36_complete _ _ _ _ _ _ _ _ _ _ _ _ HB' Ht Hz HR') as [U2 O2].
  rewrite <- En in *. set (n := numel din (length inm)) in *.
  destruct (some_or_none n (quantize_result A nt oaddr din dout rm thr scale zp inm)) as [(i & Hi & N)|SO].
  - rewrite U1, U2; auto; exists i; split; auto. rewrite <- E; auto.
  - destruct O1 as (o & -> & Lo & C & B); auto. destruct O2 as (o' & -> & Lo' & C' & B'); [intros i Hi; rewrite <- E; auto|].
    f_equal. assert (LL : length o = length o') by congruence.
    apply list_ext; auto. intros k Hk. rewrite B, B' by lia. unfold packed_byte. f_equal. apply map_ext_in. intros j _. cbv zeta.
    destruct (Nat.ltb_spec (codes_per_byte dout * k + j) n) as [Hl|Hl]; auto.
    assert (code_at dout o (codes_per_byte dout * k + j) = code_at dout o' (codes_per_byte dout * k + j)) as ->; auto.
    specialize (C _ Hl). specialize (C' _ Hl). rewrite E in C by auto. congruence.
Qed.

(** The scalar results of a bf16 value and of the same f32 value agree; only for uint2 with nearest rounding is the bf16 conversion narrower (int32). *)
Lemma scalar_bf16_f32 dout rm thr scale zp x : quant_type dout -> (dout = DT_UINT2 -> rm = RM_NEAREST -> - 2 ^ 31 <= zp < 2 ^ 31)%Z ->
  scalar_result DT_BF16 dout rm thr scale zp x = scalar_result DT_F32 dout rm thr scale zp x \/
  (dout = DT_UINT2 /\ rm = RM_NEAREST /\ scalar_result DT_BF16 dout rm thr scale zp x = None).
Proof.
  intros Hq Hz. destruct Hq as [->|[->| ->]], rm; try (left; reflexivity).
  specialize (Hz eq_refl eq_refl). unfold scalar_result. cbv zeta. change (int_limit DT_BF16 DT_UINT2 RM_NEAREST) with (2 ^ 31)%Z. change (int_limit DT_F32 DT_UINT2 RM_NEAREST) with (2 ^ 63)%Z.
  change (2 ^ 31 =? 2 ^ 31)%Z with true. change (2 ^ 63 =? 2 ^ 31)%Z with false. cbv iota.
  assert (wrap32 zp = zp) as -> by (clear - Hz; change (2 ^ 31)%Z with 2147483648%Z in Hz; unfold wrap32; rewrite Z.mod_small by lia; lia). set (k := round_half_away _). clearbody k.
  destruct (is_finite 24 128 (product scale x)); cbn [andb]; [|left; reflexivity].
  destruct (((- 2 ^ 31 <=? k) && (k <? 2 ^ 31)) && ((- 2 ^ 31 <=? k + zp) && (k + zp <? 2 ^ 31)))%Z eqn:E; [left|right; auto].
  assert (((- 2 ^ 63 <=? k) && (k <? 2 ^ 63)) && ((- 2 ^ 63 <=? k + zp) && (k + zp <? 2 ^ 63)) = true)%Z as ->; [|reflexivity].
  clear - E. lia.
Qed.

Theorem C19_stochastic_any_data A A' nt nt' oaddr oaddr' dout scale zp thr inm16 inm32 outm outm' n r r' :
  length inm16 = 2 * n -> length inm32 = 4 * n ->
  buffers_ok nt DT_BF16 dout inm16 outm -> buffers_ok nt' DT_F32 dout inm32 outm' ->
  (forall i, i < n -> f32_at inm32 i = f32_of_bits (bf16_at inm16 i * 65536)) ->
  threshold thr -> (- 2 ^ 63 <= zp < 2 ^ 63)%Z ->
  returns inm16 outm (quantize_call A nt oaddr DT_BF16 dout scale zp RM_STOCHASTIC thr inm16 outm) r ->
  returns inm32 outm' (quantize_call A' nt' oaddr' DT_F32 dout scale zp RM_STOCHASTIC thr inm32 outm') r' ->
  r = r'.
Proof.
  intros L16 L32 HB HB' HV Ht Hz HR HR'.
  assert (N16 : numel DT_BF16 (length inm16) = n) by (rewrite L16; unfold numel; cbn [stride]; rewrite Nat.mul_comm, Nat.div_mul; lia).
  assert (N32 : numel DT_F32 (length inm32) = n) by (rewrite L32; unfold numel; cbn [stride]; rewrite Nat.mul_comm, Nat.div_mul; lia).
  eapply (outcome_by_results A A' nt nt' oaddr oaddr' DT_BF16 DT_F32 dout scale zp RM_STOCHASTIC thr inm16 inm32 outm outm'); eauto; [congruence|].
  rewrite N16. intros i Hi. unfold quantize_result. cbv zeta. cbn [elem_at]. rewrite HV by auto. reflexivity.
Qed.

(** Nearest rounding: if every element takes the same kind of path in both calls, the outcomes are the same for all data, except that quantizing bf16 to
    uint2 (int32 arithmetic) can be undefined where f32 to uint2 (int64 arithmetic) is not. *)
Theorem C19_nearest_any_data A A' nt nt' oaddr oaddr' dout scale zp thr inm16 inm32 outm outm' n r r' :
  length inm16 = 2 * n -> length inm32 = 4 * n ->
  buffers_ok nt DT_BF16 dout inm16 outm -> buffers_ok nt' DT_F32 dout inm32 outm' ->
  (forall i, i < n -> f32_at inm32 i = f32_of_bits (bf16_at inm16 i * 65536)) ->
  (- 2 ^ 63 <= zp < 2 ^ 63)%Z -> (dout = DT_UINT2 -> - 2 ^ 31 <= zp < 2 ^ 31)%Z ->
  (forall i, i < n ->
     let v := vector_path A DT_BF16 dout oaddr n nt i in
     v = vector_path A' DT_F32 dout oaddr' n nt' i /\ (v = true -> (A = NEON <-> A' = NEON))) ->
  returns inm16 outm (quantize_call A nt oaddr DT_BF16 dout scale zp RM_NEAREST thr inm16 outm) r ->
  returns inm32 outm' (quantize_call A' nt' oaddr' DT_F32 dout scale zp RM_NEAREST thr inm32 outm') r' ->
  r = r' \/ (dout = DT_UINT2 /\ r = UB).
Proof.
  intros L16 L32 HB HB' HV Hz Hz2 HP HR HR'. pose proof HB as (_ & Hq & _).
  assert (N16 : numel DT_BF16 (length inm16) = n) by (rewrite L16; unfold numel; cbn [stride]; rewrite Nat.mul_comm, Nat.div_mul; lia).
  assert (N32 : numel DT_F32 (length inm32) = n) by (rewrite L32; unfold numel; cbn [stride]; rewrite Nat.mul_comm, Nat.div_mul; lia).
  assert (Ht : RM_NEAREST = RM_STOCHASTIC -> threshold thr) by discriminate.
  destruct (C36_complete _ _ _ _ _ _ _ _ _ _ _ _ HB Ht Hz HR) as [U1 _]. rewrite N16 in U1.
  assert (Q : forall i, i < n -> quantize_result A nt oaddr DT_BF16 dout RM_NEAREST thr scale zp inm16 i = quantize_result A' nt' oaddr' DT_F32 dout RM_NEAREST thr scale zp inm32 i \/
     (dout = DT_UINT2 /\ quantize_result A nt oaddr DT_BF16 dout RM_NEAREST thr scale zp inm16 i = None)).
  { intros i Hi. destruct (HP i Hi) as [Ev K]. unfold quantize_result. cbv zeta. rewrite N16, N32, <- Ev. cbn [elem_at]. rewrite HV by auto.
    destruct (vector_path A _ _ _ _ _ _).
    - left. specialize (K eq_refl). unfold vector_result. cbv zeta.
      destruct A, A'; auto; destruct K as [K1 K2]; try (specialize (K1 eq_refl)); try (specialize (K2 eq_refl)); discriminate.
    - destruct (scalar_bf16_f32 dout RM_NEAREST thr scale zp (f32_of_bits (bf16_at inm16 i * 65536)) Hq (fun e _ => Hz2 e)) as [E|(E1 & _ & E2)]; [left; exact E|right; split; auto]. }
  destruct (some_or_none n (quantize_result A nt oaddr DT_BF16 dout RM_NEAREST thr scale zp inm16)) as [(i & Hi & N)|SO].
  - destruct (Q i Hi) as [E|[E _]].
    + left. destruct (C36_complete _ _ _ _ _ _ _ _ _ _ _ _ HB' Ht Hz HR') as [U2 _]. rewrite N32 in U2.
      rewrite U1, U2; auto; exists i; split; auto. rewrite <- E. exact N.
    + right. split; auto. apply U1. eauto.
  - left. eapply (outcome_by_results A A' nt nt' oaddr oaddr' DT_BF16 DT_F32 dout scale zp RM_NEAREST thr inm16 inm32 outm outm'); eauto; [congruence|].
    rewrite N16. intros i Hi. destruct (Q i Hi) as [E|[_ E]]; auto. exfalso. apply (SO i Hi E).
Qed.

(** The exception is real: 2^32 with scale 1 and zero point 0 quantizes to the uint2 code 3 as an f32 and is undefined as a bf16, on every CPU. *)
Theorem C19_uint2_refuted A A' oaddr oaddr' thr outm outm' r r' :
  let x16 : mem := [0x80; 0x4f]%Z in let x32 : mem := [0; 0; 0x80; 0x4f]%Z in
  length outm = 1 -> length outm' = 1 ->
  returns x16 outm (quantize_call A 1 oaddr DT_BF16 DT_UINT2 f_one 0 RM_NEAREST thr x16 outm) r ->
  returns x32 outm' (quantize_call A' 1 oaddr' DT_F32 DT_UINT2 f_one 0 RM_NEAREST thr x32 outm') r' ->
  f32_at x32 0 = f32_of_bits (bf16_at x16 0 * 65536) /\ r = UB /\ r' = Ok [3%Z].
Proof.
  intros x16 x32 L L' HR HR'.
  assert (EX : f32_at x32 0 = f32_of_bits 0x4f800000) by (vm_compute; reflexivity).
  assert (EX' : elem_at DT_BF16 x16 0 = f32_of_bits 0x4f800000) by (vm_compute; reflexivity).
  split; [vm_compute; reflexivity|].
  assert (Hq : quant_type DT_UINT2) by (left; reflexivity).
  assert (B16 : Forall is_byte x16) by (unfold x16; repeat (apply Forall_cons; [unfold is_byte; lia|]); apply Forall_nil).
  assert (B32 : Forall is_byte x32) by (unfold x32; repeat (apply Forall_cons; [unfold is_byte; lia|]); apply Forall_nil).
  assert (HB : buffers_ok 1 DT_BF16 DT_UINT2 x16 outm).
  { split; [right; reflexivity|]. split; auto. split; auto. split; [rewrite L; reflexivity|]. unfold sizes_ok. change (length x16) with 2. change (numel DT_BF16 2) with 1. lia. }
  assert (HB' : buffers_ok 1 DT_F32 DT_UINT2 x32 outm').
  { split; [left; reflexivity|]. split; auto. split; auto. split; [rewrite L'; reflexivity|]. unfold sizes_ok. change (length x32) with 4. change (numel DT_F32 4) with 1. lia. }
  assert (Ht : RM_NEAREST = RM_STOCHASTIC -> threshold thr) by discriminate. assert (Hz : (- 2 ^ 63 <= 0 < 2 ^ 63)%Z) by lia.
  destruct (C36_complete _ _ _ _ _ _ _ _ _ _ _ _ HB Ht Hz HR) as [U _]. destruct (C36_complete _ _ _ _ _ _ _ _ _ _ _ _ HB' Ht Hz HR') as [_ K].
  change (numel DT_BF16 (length x16)) with 1 in U. change (numel DT_F32 (length x32)) with 1 in K.
  assert (P : product f_one (f32_of_bits 0x4f800000) = f32_of_bits 0x4f800000).
  { rewrite <- (f32_bits_bits (product _ _)). apply (f_equal f32_of_bits). vm_compute. reflexivity. }
  assert (V : is_finite 24 128 (f32_of_bits 0x4f800000) = true /\ round_half_away (val (f32_of_bits 0x4f800000)) = (2 ^ 32)%Z).
  { split; [reflexivity|]. replace (val (f32_of_bits 0x4f800000)) with (IZR (2 ^ 32)); [apply rha_IZR|]. unfold val. cbn. unfold F2R. cbn. lra. }
  destruct V as [F V].
  assert (NV : forall B d oa, vector_path B d DT_UINT2 oa 1 1 0 = false).
  { intros B d oa. unfold vector_path. cbn [seq existsb]. cbv zeta. rewrite orb_false_r. apply andb_false_iff. right.
    change (part_bound (codes_per_byte DT_UINT2) 1 1 0) with 0. change (part_bound (codes_per_byte DT_UINT2) 1 1 1) with 1.
    destruct B, d; reflexivity. }
  split.
  - apply U. exists 0. split; [lia|]. unfold quantize_result. change (numel DT_BF16 (length x16)) with 1. rewrite NV, EX'. unfold scalar_result. cbv zeta. rewrite P, V.
    change (int_limit DT_BF16 DT_UINT2 RM_NEAREST) with (2 ^ 31)%Z. rewrite F. reflexivity.
  - assert (C : quantize_result A' 1 oaddr' DT_F32 DT_UINT2 RM_NEAREST thr f_one 0 x32 0 = Some 3%Z).
    { unfold quantize_result. change (numel DT_F32 (length x32)) with 1. rewrite NV. change (elem_at DT_F32 x32 0) with (f32_at x32 0). rewrite EX. unfold scalar_result. cbv zeta. rewrite P, V.
      change (int_limit DT_F32 DT_UINT2 RM_NEAREST) with (2 ^ 63)%Z. rewrite F. reflexivity. }
    destruct K as (o & -> & Lo & KC & KB).
    { intros i Hi. assert (i = 0) by lia. subst i. rewrite C. discriminate. }
    f_equal. rewrite L' in Lo. destruct o as [|b [|]]; try discriminate. f_equal. specialize (KB 0 ltac:(cbn; lia)). cbn [nth] in KB. rewrite KB.
    specialize (KC 0 ltac:(lia)). rewrite C in KC. injection KC as KC. unfold packed_byte. change (codes_per_byte DT_UINT2) with 4. cbn [seq map]. cbv zeta. cbn [Nat.mul Nat.add Nat.ltb Nat.leb].
    rewrite <- KC. reflexivity.
Qed.
