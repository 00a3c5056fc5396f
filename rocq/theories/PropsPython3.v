(** PropsPython3.v -- C57: compute_quant_params, quantize and dequantize of the torch module, composed: what the documented workflow gives back. *)
From Coq Require Import String ZArith Lia Bool Arith ZifyBool ZifyNat Reals Lra Psatz List.
From Flocq Require Import Core Binary Bits Relative.
From Verif Require Import Base Floats Simd Dtypes Spec ApiSpec QuantKernels DequantKernels ExecFacts FloatFacts QuantFacts QuantKernelFacts
  QuantGenericFacts DequantFacts DequantGenericFacts QuantLanes Context ContextFacts Footprint QuantizeFacts DequantizeFacts Api PropsQuantize Schedule
  PropsMemory FloatFacts2 PropsDequantize PropsRoundTrip PathSpec PropsPaths RoundTripFacts PropsIdempotent MinMax MinMaxFacts ConfigSpec F64Facts ConfigFacts PropsConfig
  PropsRepresent Bf16Spec Bf16Facts FloatFacts3 PropsBf16 Capi PropsCapi Python PropsPython PropsDequantBf16 PropsPython2 PropsRoundTripTypes PropsTests.
Import ListNotations.
Local Open Scope R_scope.

(** ** A Python float holds every C float: the scale survives the trip through the interpreter. *)
Lemma scale_survives s : finite s -> 0 < val s -> f32_of_f64 (f64_of_f32 s) = s.
Proof.
  intros F P. destruct (f64_of_f32_ok s F) as [F64 V64].
  assert (G : RN32 (val s) = val s) by (apply round_generic; auto with typeclass_instances; apply generic_format_B2R).
  destruct (f32_of_f64_ok (f64_of_f32 s) F64) as (F' & V' & S'); [rewrite V64, G; apply abs_B2R_lt_emax|]. rewrite V64 in *. rewrite G in V'.
  apply B2R_Bsign_inj; auto. rewrite S' by auto. symmetry. destruct s as [| | |[] m e H]; auto; cbn in P; try lra.
  exfalso. pose proof (F2R_lt_0 radix2 (Float radix2 (Zneg m) e) ltac:(cbn; lia)). cbn in *. lra.
Qed.

(** ** A call that is correct on the exact span is correct on a longer allocation. *)
Lemma run_action_longer inm a o o' rest : run_action inm a o = Ok o' -> run_action inm a (o ++ rest) = Ok (o' ++ rest).
Proof.
  unfold run_action. destruct (in_bounds (a_ioff a) (a_ilen a) inm); cbn [andb]; [|discriminate].
  unfold in_bounds. destruct (Nat.leb_spec (a_ooff a + a_olen a) (length o)) as [L|]; [|discriminate].
  rewrite app_length. destruct (Nat.leb_spec (a_ooff a + a_olen a) (length o + length rest)) as [_|]; [|lia].
  assert (E : slice (a_ooff a) (a_olen a) (o ++ rest) = slice (a_ooff a) (a_olen a) o).
  { unfold slice. rewrite skipn_app, firstn_app. replace (a_olen a - length (skipn (a_ooff a) o))%nat with 0%nat by (rewrite skipn_length; lia).
    cbn [firstn]. apply app_nil_r. }
  rewrite E. destruct (a_fn a _ _) as [r| |]; cbn [bind]; try discriminate. destruct (Nat.eqb_spec (length r) (a_olen a)) as [Er|]; [|discriminate].
  intros H. injection H as <-. f_equal. unfold splice. rewrite firstn_app, skipn_app.
  replace (a_ooff a - length o)%nat with 0%nat by lia. replace (a_ooff a + length r - length o)%nat with 0%nat by lia.
  cbn [firstn skipn]. rewrite app_nil_r, <- !app_assoc. reflexivity.
Qed.
Lemma run_trace_longer inm tr rest : forall o o', run_trace inm tr o = Ok o' -> run_trace inm tr (o ++ rest) = Ok (o' ++ rest).
Proof.
  induction tr as [|a tr IH]; intros o o'; cbn [run_trace]; [intros H; injection H as <-; reflexivity|].
  destruct (run_action inm a o) as [o1| |] eqn:E; cbn [bind]; try discriminate. intros H. rewrite (run_action_longer _ _ _ _ rest E). cbn [bind]. auto.
Qed.
Lemma returns_longer inm o rest call r : (forall r', returns inm o call r' -> exists o', r' = Ok o') -> returns inm (o ++ rest) call r ->
  exists o', returns inm o call (Ok o') /\ r = Ok (o' ++ rest).
Proof.
  intros HO HR. inversion HR as [jobs tr HI E1 E2|E1 E2|E1 E2]; subst.
  - destruct (HO (run_trace inm tr o)) as (o' & E); [constructor; auto|]. exists o'. split; [rewrite <- E; constructor; auto|]. apply run_trace_longer. auto.
  - destruct (HO Abort) as (o' & E); [constructor|discriminate].
  - destruct (HO UB) as (o' & E); [constructor|discriminate].
Qed.

(** ** The decoded value of a stored code, both output types. *)
Lemma decode_near A nt oaddr dq dout scale zp inm in_size outm r :
  dq_buffers nt dq dout inm in_size outm -> Forall is_byte outm -> out_scale dout scale -> 0 < val scale -> (0 <= zp <= code_max dq)%Z ->
  returns inm outm (dequantize_call A nt oaddr dq dout scale zp RO_SET in_size outm) r ->
  exists o, r = Ok o /\ length o = length outm /\ forall i, (i < numel dout (length outm))%nat ->
     let m := (code_at dq inm i - zp)%Z in
     finite (elem_at dout o i) /\ Rabs (val (elem_at dout o i) / val scale - IZR m) <= store_error dout (Rabs (IZR m)) + / 7000.
Proof.
  intros HB' Hob Hs Hp Hz HD. pose proof HB' as (Hq & Hdo & _). pose proof (code_max_range dq Hq) as Hm. pose proof (out_scale_normal _ _ Hs) as Hsn.
  assert (Hz22 : (Z.abs zp <= 2 ^ 22)%Z) by (clear - Hz Hm; lia). assert (Hz30 : (Z.abs zp <= 2 ^ 30)%Z) by (clear - Hz Hm; lia).
  destruct Hdo as [-> | ->].
  - destruct (C07_dequantize_set_f32 _ _ _ _ _ _ _ _ _ _ HB' Hz30 HD) as (o & -> & HLo & HE & _ & _).
    exists o. split; auto. split; auto. intros i Hi m. cbn [elem_at]. rewrite HE by auto. set (c := code_at dq inm i) in *.
    pose proof (code_at_le dq inm i Hq) as Hc. fold c in Hc.
    assert (Hm' : (Z.abs m <= 255)%Z) by (unfold m; lia).
    destruct (dequant_value_ok scale zp c Hsn ltac:(fold m; lia)) as [F V]. unfold dequant_value in F, V. split; auto. rewrite V. fold m.
    pose proof (product_near scale m Hsn) as P. cbn [store_error].
    assert (B3 : (Rabs (IZR m) <= IZR 255)) by (apply abs_IZR_le; lia). destruct tiny_small as [_ T2].
    assert (tiny <= bpow radix2 (-20)) by (unfold tiny; apply bpow_le; lia). change (bpow radix2 (-20)) with (/ 1048576) in *. unfold u32r in P. lra.
  - destruct (C07_bf16_accuracy _ _ _ _ _ _ _ _ _ _ HB' Hz Hs Hob HD) as (o & -> & HE).
    destruct (C07_dequantize_set_bf16 _ _ _ _ _ _ _ _ _ _ HB' Hz22 Hob HD) as (o' & Eo & HLo & _). injection Eo as <-.
    exists o. split; auto. split; auto. intros i Hi m. destruct (HE i Hi) as [F N]. split; auto. fold m in N.
    set (w := val (elem_at DT_BF16 o i)) in *. cbn [store_error].
    rewrite (Rabs_mult (IZR m)), (Rabs_pos_eq (val scale)) in N by lra.
    replace (w - IZR m * val scale) with ((w / val scale - IZR m) * val scale) in N by (field; lra).
    rewrite Rabs_mult, (Rabs_pos_eq (val scale)) in N by lra.
    replace (/ 256 * (Rabs (IZR m) * val scale) + bpow radix2 (-13) * val scale) with ((/ 256 * Rabs (IZR m) + bpow radix2 (-13)) * val scale) in N by ring.
    apply Rmult_le_reg_r in N; auto. change (bpow radix2 (-13)) with (/ 8192) in N. lra.
Qed.

(** ** C57.  The README workflow in Python: parameters from the tensor, quantize, dequantize. *)
(** Error allowed for one element: half a step (nearest) or one step (stochastic), 2^-11 of a step, and half a bf16 ulp for bfloat16 results. *)
Definition workflow_error (rm : round_mode_t) (dout : dtype) (step x : R) : R :=
  step * (match rm with RM_NEAREST => / 2 | RM_STOCHASTIC => 1 end + / 2048) + match dout with DT_BF16 => / 256 * (Rabs x + 2 * step) | _ => 0 end.

Theorem C57_torch_round_trip a blocks A nt A2 nt2 t qbuf obuf tq td din dq dout rm thr lo hi :
  torch_tensor t -> torch_tensor qbuf -> t_dtype qbuf = tq -> t_shape qbuf = t_shape t -> torch_tensor obuf -> t_dtype obuf = td -> t_shape obuf = t_shape t ->
  float_dtype (t_dtype t) din -> quant_dtype tq dq -> float_dtype td dout ->
  let n := elements (t_shape t) in
  sizes_ok (length (t_data t)) n nt -> sizes_ok (length (t_data obuf)) n nt2 -> (rm = RM_STOCHASTIC -> threshold thr) ->
  a <> SSE42 -> block_cover n blocks -> (forall i, (i < n)%nat -> finite (elem_at din (t_data t) i)) ->
  data_range din (t_data t) n lo hi -> lo <= 0 <= hi -> bpow radix2 (-112) <= hi - lo <= bpow radix2 100 ->
  (* scale, zero_point = compute_quant_params(t, dtype=tq) *)
  exists scale zp, torch_compute_quant_params false a t tq blocks = Ret (Ok (scale, zp)) /\
    0 < val scale <= (hi - lo) / IZR (code_max dq) * (1 + / 1000000) /\ (0 <= zp <= code_max dq)%Z /\
    (* q = quantize(t, scale=scale, zero_point=zero_point, dtype=tq, round_mode=...) *)
    exists call, torch_quantize false A nt t (f64_of_f32 scale) zp tq (mode_name rm) qbuf thr = Ret call /\
      forall r, returns (t_data t) (t_data qbuf) call r -> exists codes, r = Ok codes /\
        let q := mk_tensor tq (t_shape t) (t_ptr qbuf) codes in torch_tensor q /\
        (* y = dequantize(q, scale=scale, zero_point=zero_point, dtype=td) *)
        ((dout = DT_F32 -> overread_ok dq n codes) ->
         exists call2, torch_dequantize false A2 nt2 q (f64_of_f32 scale) zp td "set" obuf = Ret call2 /\
           forall r2, returns codes (t_data obuf) call2 r2 -> exists y, r2 = Ok y /\ length y = length (t_data obuf) /\
             forall i, (i < n)%nat -> let x := val (elem_at din (t_data t) i) in
               finite (elem_at dout y i) /\ Rabs (val (elem_at dout y i) - x) <= workflow_error rm dout (val scale) x).
Proof.
  intros Ht Hqb Eq Esq Hob Eo Eso Fd Qd Od n HS HS2 Hth Ha HBl HF HR H0 HB.
  pose proof Fd as Fd'. apply float_dtype_iff in Fd'. destruct Fd' as [Et Hf]. pose proof Qd as Qd'. apply quant_dtype_iff in Qd'. destruct Qd' as [Et2 Hq].
  pose proof Od as Od'. apply float_dtype_iff in Od'. destruct Od' as [Et3 Hdo].
  assert (Hpos : (0 < n)%nat) by (destruct HR as ((i & Hi & _) & _); lia).
  assert (LT : length (t_data t) = (n * stride din)%nat) by (destruct Ht as (-> & _); apply float_storage; auto).
  assert (LO : length (t_data obuf) = (n * stride dout)%nat) by (destruct Hob as (-> & _); rewrite Eo, Eso; apply float_storage; auto).
  assert (LQ : (bytes_for dq n <= length (t_data qbuf))%nat) by (destruct Hqb as (-> & _); rewrite Eq, Esq; apply C38_output_fits; auto).
  assert (NT : numel din (n * stride din) = n) by (apply numel_exact; auto).
  assert (NO : numel dout (n * stride dout) = n) by (apply numel_exact; auto).
  assert (S4 : (Z.of_nat (n * 4) < 2 ^ 64)%Z).
  { destruct HS as (_ & _ & _ & HS'). rewrite LT in HS'. destruct Hf as [->| ->]; cbn [stride] in HS'; lia. }
  assert (HD : finite_data din (t_data t) n) by (split; [apply Ht|split; [lia|auto]]).
  pose proof (bpow_gt_0 radix2 (-112)) as P0.
  destruct (C21_documented_parameters a din dq (t_data t) n blocks lo hi Ha Hf Hq HD HBl HR ltac:(lra)) as (scale & EC & _ & _).
  set (zp := config_zp dq lo hi) in *. exists scale, zp.
  destruct (C38_torch_params a t tq din dq blocks Ht Hpos ltac:(fold n; lia) Et Hf Et2 Hq) as [_ EP]. split; [rewrite EP, EC; reflexivity|].
  destruct (config_usable a blocks din dout dq scale zp (t_data t) n lo hi Ha Hf Hdo Hq HD HBl HR H0 HB EC) as (Hs & Hsu & Hz & FIT & HX).
  destruct Hsu as [Hp Hsu]. split; auto. split; auto. pose proof (out_scale_normal _ _ Hs) as Hsn. pose proof (code_max_range dq Hq) as Hm.
  pose proof (scale_survives scale (proj1 Hsn) Hp) as SV. assert (Zf : zp_fits zp) by (unfold zp_fits; lia).
  destruct (C38_torch_quantize_outcome A nt t qbuf (f64_of_f32 scale) zp tq (mode_name rm) thr Ht Hqb Eq Esq S4) as [(din' & dq' & rm' & HA & _ & _ & E)|[N _]].
  2: { exfalso. apply N. exists din, dq, rm. repeat split; auto; apply Zf. }
  destruct HA as (F2 & Q2 & M2 & _). apply float_dtype_iff in F2. apply quant_dtype_iff in Q2. destruct F2 as [F2 _], Q2 as [Q2 _].
  assert (din' = din) as -> by congruence. assert (dq' = dq) as -> by congruence. assert (rm' = rm) as -> by (destruct rm, rm'; auto; discriminate).
  fold n in E. rewrite SV in E. eexists. split; [exact E|]. intros r HRq.
  (* the call on the exact span *)
  set (pk := firstn (bytes_for dq n) (t_data qbuf)). set (rest := skipn (bytes_for dq n) (t_data qbuf)).
  assert (LP : length pk = bytes_for dq n) by (unfold pk; rewrite firstn_length; lia).
  assert (HBu : buffers_ok nt din dq (t_data t) pk).
  { split; auto. split; auto. split; [apply Ht|]. rewrite LT, NT. split; auto. rewrite <- LT. auto. }
  assert (CE : quantize A nt (wrap_u64 (t_ptr qbuf)) (Z.of_nat (n * stride din)) din (Z.of_nat (bytes_for dq n)) dq scale zp rm thr =
               quantize_call A nt (wrap_u64 (t_ptr qbuf)) din dq scale zp rm thr (t_data t) pk).
  { unfold quantize_call. rewrite LT, LP. reflexivity. }
  assert (NTt : numel din (length (t_data t)) = n) by (rewrite LT; auto).
  assert (QN : forall r', returns (t_data t) pk (quantize_call A nt (wrap_u64 (t_ptr qbuf)) din dq scale zp rm thr (t_data t) pk) r' -> exists o, r' = Ok o /\ length o = length pk /\ Forall is_byte o /\
    forall i, (i < n)%nat -> exists k, code_at dq o i = clamp 0 (code_max dq) (k + zp) /\
      Rabs (IZR k - scaled (val scale) (val (elem_at din (t_data t) i))) <= code_error rm + bpow radix2 (-25)).
  { intros r' HR'. destruct (quantize_near_rm A nt (wrap_u64 (t_ptr qbuf)) din dq scale zp rm thr (t_data t) pk r' HBu (normal_good _ Hsn) ltac:(clear - Hz Hm; lia) Hth) as (o & -> & H1 & H2 & H3); auto.
    - rewrite NTt. auto.
    - rewrite NTt in H3. exists o. auto. }
  rewrite CE in HRq. rewrite <- (firstn_skipn (bytes_for dq n) (t_data qbuf)) in HRq. fold pk rest in HRq.
  destruct (returns_longer _ _ _ _ _ (fun r' H => let (o, Ho) := QN r' H in ex_intro _ o (proj1 Ho)) HRq) as (p & HRp & ->).
  destruct (QN _ HRp) as (p' & E' & Lp & Bp & HC). injection E' as <-.
  exists (p ++ rest). split; auto. intros q.
  assert (LL : length (p ++ rest) = length (t_data qbuf)).
  { rewrite app_length, Lp, <- app_length. unfold pk, rest. rewrite firstn_skipn. reflexivity. }
  assert (Tq : torch_tensor q).
  { destruct Hqb as (L1 & B1 & N1). unfold q. split; [|split]; cbn [t_data t_dtype t_shape t_ptr].
    - rewrite LL, L1, Eq, Esq. reflexivity.
    - apply Forall_app. split; auto. unfold rest. clear - B1. rewrite <- (firstn_skipn (bytes_for dq n) (t_data qbuf)) in B1. apply Forall_app in B1. apply B1.
    - rewrite N1, Esq. reflexivity. }
  split; auto. intros OR.
  destruct (C38_torch_dequantize_outcome A2 nt2 q obuf (f64_of_f32 scale) zp td "set" Tq Hob Eo Eso S4) as [(dq' & dout' & op & HA & LT2 & _ & E2)|[N _]].
  2: { exfalso. apply N. exists dq, dout, RO_SET. repeat split; auto; apply Zf. }
  destruct HA as (Q3 & F3 & M3 & _). apply float_dtype_iff in F3. apply quant_dtype_iff in Q3. destruct F3 as [F3 _], Q3 as [Q3 _]. cbn [q t_dtype] in Q3.
  assert (dq' = dq) as -> by congruence. assert (dout' = dout) as -> by congruence. assert (op = RO_SET) as -> by (destruct op; auto; discriminate).
  change (elements (t_shape q)) with n in E2, LT2. change (t_data q) with (p ++ rest) in LT2. rewrite SV in E2. eexists. split; [exact E2|]. intros r2 HR2.
  assert (HB2 : dq_buffers nt2 dq dout (p ++ rest) (bytes_for dq n) (t_data obuf)).
  { unfold dq_buffers. rewrite LO, NO. split; auto. split; auto. split; [apply Tq|]. split; auto. split; auto. split; [rewrite <- LO; auto|].
    intros -> -> Hn0 _. apply OR; auto. }
  destruct (decode_near A2 nt2 (wrap_u64 (t_ptr obuf)) dq dout scale zp (p ++ rest) (bytes_for dq n) (t_data obuf) r2 HB2 (proj1 (proj2 Hob)) Hs Hp Hz HR2) as (y & -> & Ly & DEC).
  exists y. split; auto. split; auto. intros i Hi x. rewrite LO, NO in DEC. destruct (DEC i Hi) as [F V]. split; auto. clear DEC.
  destruct (HC i Hi) as (k & C & K). fold x in K.
  assert (CA : code_at dq (p ++ rest) i = code_at dq p i).
  { apply code_at_app; auto. rewrite Lp, LP, codes_per_byte_q, bytes_for_per_byte by auto. destruct Hq as [->|[->| ->]]; cbn [per_byte]; lia. }
  rewrite CA, C in V.
  assert (HK : / 2 <= code_error rm <= 1) by (destruct rm; cbn; lra).
  destruct (steps_near dq scale zp x k (/ 8192) (code_error rm) Hq Hsn Hp Hz ltac:(lra) HK K (FIT i Hi)) as [M1 M3'].
  set (m := (clamp 0 (code_max dq) (k + zp) - zp)%Z) in *. set (w := val (elem_at dout y i)) in *. cbv zeta in V.
  replace (w - x) with (val scale * ((w / val scale - IZR m) + (IZR m - x / val scale))) by (field; lra).
  rewrite Rabs_mult, (Rabs_pos_eq (val scale)) by lra. set (s := val scale) in *.
  assert (E2x : Rabs (x / s) = Rabs x / s).
  { unfold Rdiv. rewrite Rabs_mult, Rabs_inv by lra. rewrite (Rabs_pos_eq s) by lra. reflexivity. }
  assert (SM : store_error dout (Rabs (IZR m)) <= store_error dout (Rabs x / s + 2)).
  { destruct Hdo as [-> | ->]; cbn [store_error]; [lra|]. apply Rmult_le_compat_l; [lra|].
    pose proof (Rabs_triang (IZR m - x / s) (x / s)) as TT. replace (IZR m - x / s + x / s) with (IZR m) in TT by ring. lra. }
  apply Rle_trans with (s * (code_error rm + / 2048 + store_error dout (Rabs x / s + 2))).
  - apply Rmult_le_compat_l; [lra|]. eapply Rle_trans; [apply Rabs_triang|]. lra.
  - apply Req_le. unfold workflow_error. destruct Hdo as [-> | ->]; cbn [store_error]; destruct rm; cbn [code_error]; field; lra.
Qed.

(** The condition [overread_ok] of C57 is not a technicality: a quint2x4 tensor whose last dimension is a multiple of 4 (the usual shape) fills its storage
    exactly, and dequantizing it to float32 reads one byte past the storage, in every execution, whatever the mode, CPU and thread count (C09). *)
Theorem C57_quint2x4_float32_refuted A nt t out scale zp op call r :
  torch_tensor t -> t_dtype t = T_quint2x4 -> torch_tensor out -> t_dtype out = T_float32 -> t_shape out = t_shape t ->
  t_shape t <> [] -> (last (t_shape t) 0 mod 4 = 0)%nat -> let n := elements (t_shape t) in (0 < n)%nat -> sizes_ok (n * 4) n nt ->
  torch_dequantize false A nt t scale zp T_float32 op out = Ret call -> returns (t_data t) (t_data out) call r -> r = UB.
Proof.
  intros Ht Et Ho Eo Es Hne Hl n Hpos HS E HR.
  assert (S4 : (Z.of_nat (n * 4) < 2 ^ 64)%Z) by (destruct HS as (_ & _ & _ & H); lia).
  destruct (C38_torch_dequantize_outcome A nt t out scale zp T_float32 op Ht Ho Eo Es S4) as [(dq & dout & o & HA & _ & LO & E')|[_ (e & E')]]; [|rewrite E' in E; discriminate].
  destruct HA as (Q & F & _). rewrite Et in Q. assert (dq = DT_UINT2) as -> by (destruct Q as [[_ Q]|[[Q _]|[[Q|Q] _]]]; auto; discriminate).
  assert (dout = DT_F32) as -> by (destruct F as [[_ F]|[F _]]; auto; discriminate). fold n in E', LO. rewrite E' in E. injection E as <-.
  assert (NE : numel DT_F32 (length (t_data out)) = n) by (rewrite LO; apply (numel_exact DT_F32); left; auto).
  assert (EN : n = (elements (removelast (t_shape t)) * last (t_shape t) 0)%nat) by (apply elements_last; auto).
  set (e := elements (removelast (t_shape t))) in *. set (l := last (t_shape t) 0%nat) in *.
  assert (Dl : l = (4 * (l / 4))%nat) by (pose proof (Nat.div_mod l 4); lia).
  assert (Nn : n = (4 * (e * (l / 4)))%nat) by (rewrite EN; rewrite Dl at 1; lia).
  assert (LT : length (t_data t) = (e * (l / 4))%nat).
  { destruct Ht as (-> & _). rewrite Et. unfold storage_bytes. destruct (t_shape t) as [|a s] eqn:ES; [congruence|]. fold e l. f_equal.
    cbn [item_bytes elements_per_byte]. rewrite Nat.mul_1_r. clear - Dl. set (q := (l / 4)%nat) in *. clearbody q. rewrite Dl. lia. }
  assert (BF : bytes_for DT_UINT2 n = length (t_data t)).
  { rewrite LT. unfold bytes_for. cbn [bit_size]. clear - Nn. set (q := (e * (l / 4))%nat) in *. clearbody q. rewrite Nn. lia. }
  rewrite BF in HR. apply (C09_uint2_overread_refuted A nt (wrap_u64 (t_ptr out)) (f32_of_f64 scale) zp o (t_data t) (t_data out) r); rewrite ?NE; auto.
  - rewrite LO. auto.
  - clear - Nn. rewrite Nn. rewrite Nat.mul_comm, Nat.mod_mul by lia. reflexivity.
Qed.
