(** PropsBadScale.v -- C36, continued: stochastic rounding for every input; the fused call; scales whose reciprocal is not finite; infinite scales. *)
From Coq Require Import ZArith List Lia Bool Arith ZifyBool ZifyNat Reals Lra.
From Flocq Require Import Core BinarySingleNaN Binary Bits.
From Verif Require Import Base Floats Simd Dtypes Spec ApiSpec QuantKernels DequantKernels ExecFacts FloatFacts QuantFacts QuantKernelFacts LoopFacts
  QuantGenericFacts DequantFacts DequantGenericFacts QuantLanes Context ContextFacts Footprint QuantizeFacts DequantizeFacts Api
  FloatFacts2 FloatFacts3 PropsQuantize PathSpec NoAbort ScalarUB PropsPaths PropsExtreme PropsRoundTrip Bf16Spec Bf16Facts.
Import ListNotations.
Local Open Scope R_scope.

(** ** Stochastic rounding *)
(** Is the conversion of [x] defined?  The rounded value and its sum with the zero point must fit int64. *)
Definition stoch_defined (scale : f32) (zp : Z) (thr x : f32) : Prop :=
  let q := stoch_round (val thr) (scaled (val scale) (val x)) in
  finite x /\ (- 2 ^ 63 <= q < 2 ^ 63)%Z /\ (- 2 ^ 63 <= q + zp < 2 ^ 63)%Z.

Lemma stoch_dec scale zp thr x : {stoch_defined scale zp thr x} + {~ stoch_defined scale zp thr x}.
Proof.
  unfold stoch_defined. cbv zeta. set (q := stoch_round _ _). clearbody q. set (L := (2 ^ 63)%Z). clearbody L.
  destruct (finite_dec x); [|right; tauto].
  destruct (Z_le_dec (- L) q); [|right; lia]. destruct (Z_lt_dec q L); [|right; lia].
  destruct (Z_le_dec (- L) (q + zp)); [|right; lia]. destruct (Z_lt_dec (q + zp) L); [|right; lia]. left. repeat split; auto.
Qed.

(** what the code converts to int64 *)
Definition stoch_float (thr rnd : f32) : f32 :=
  let dec := fabs (fsub rnd (ftrunc rnd)) in
  let adj := if flt thr dec then f_one else f_zero in
  fadd (ftrunc rnd) (if flt rnd f_zero then fmul f_neg_one adj else adj).
Lemma q_stochastic_float mx thr inv zp x :
  q_stochastic mx thr inv zp x = (q <- f32_to_i64 (stoch_float thr (fmul x inv)) ;; integral <- i64 (q + zp) ;; Ok (clampZ 0 mx integral)).
Proof. reflexivity. Qed.

Lemma stoch_float_nonfinite thr p : ~ finite p -> ~ finite (stoch_float thr p).
Proof.
  intros H. unfold stoch_float. set (adj := if flt p f_zero then _ else _).
  assert (A : is_finite 24 128 adj = true).
  { unfold adj. destruct (flt p f_zero), (flt thr _); vm_compute; reflexivity. }
  clearbody adj. unfold finite in *. destruct p; cbn [ftrunc Bnearbyint] in *; try (exfalso; apply H; reflexivity); destruct adj; try discriminate; cbn; discriminate.
Qed.

Lemma int_fmt_abs_lt y n : fmt32 y -> y = IZR n -> Rabs y < max32 -> RN32 (IZR n) = IZR n.
Proof. intros F -> _. apply RN32_fmt; auto. Qed.

Lemma stoch_round_int thr n : 0 <= thr -> stoch_round thr (IZR n) = n.
Proof.
  intros H. unfold stoch_round. rewrite <- abs_IZR, Zfloor_IZR, Rminus_diag_eq by reflexivity.
  rewrite (Rlt_bool_false thr 0) by exact H. destruct (Rlt_bool_spec (IZR n) 0) as [L|L]; [apply lt_IZR in L|apply le_IZR in L]; lia.
Qed.

Lemma stoch_float_ok thr p : finite p -> threshold thr -> finite (stoch_float thr p) /\ val (stoch_float thr p) = IZR (stoch_round (val thr) (val p)).
Proof.
  intros F [Ft [Ht0 Ht1]]. unfold stoch_float. set (y := val p). pose proof (val_fmt p) as Fy. fold y in Fy.
  destruct (ftrunc_ok p F) as [Ftr Etr]. fold y in Etr.
  assert (Efr : RN32 (y - IZR (Ztrunc y)) = y - IZR (Ztrunc y)) by (apply RN32_fmt, frac_fmt; auto).
  assert (Hfr : Rabs (y - IZR (Ztrunc y)) < 1).
  { destruct (Rle_or_lt 0 y) as [H0|H0].
    - rewrite (Ztrunc_floor y) by auto. pose proof (Zfloor_lb y). pose proof (Zfloor_ub y). rewrite Rabs_pos_eq by lra. lra.
    - rewrite (Ztrunc_ceil y) by lra. pose proof (Zceil_ub y). pose proof (Zceil_lb y). rewrite Rabs_left1 by lra. lra. }
  assert (H1m : 1 < max32) by (unfold max32; change 1 with (bpow radix2 0); apply bpow_lt; lia).
  pose proof (fsub_ok p (ftrunc p) F Ftr) as G. fold y in G. rewrite Etr, Efr in G. destruct G as [Fs Es]; [lra|].
  destruct (fabs_ok _ Fs) as [Fd Ed]. rewrite Es in Ed.
  rewrite (flt_ok thr) by auto. rewrite Ed.
  destruct f_zero_ok as [F0 E0], f_one_ok as [F1 E1], f_neg_one_ok as [Fn En].
  rewrite (flt_ok p) by auto. fold y. rewrite E0.
  set (b := Rlt_bool (val thr) (Rabs (y - IZR (Ztrunc y)))).
  set (s := Rlt_bool y 0).
  set (adj := if s then fmul f_neg_one (if b then f_one else f_zero) else if b then f_one else f_zero).
  assert (Hadj : finite adj /\ val adj = IZR (if b then (if s then -1 else 1) else 0)).
  { unfold adj. destruct s, b.
    - destruct (fmul_ok f_neg_one f_one Fn F1) as [A B]; rewrite En, E1 in *; replace (-1 * 1) with (IZR (-1)) in * by lra;
        rewrite RN32_fmt in * by (apply fmt32_int; lia); auto. rewrite Rabs_left by lra. lra.
    - destruct (fmul_ok f_neg_one f_zero Fn F0) as [A B]; rewrite En, E0 in *; replace (-1 * 0) with 0 in * by lra;
        rewrite RN32_0 in *; auto. rewrite Rabs_R0. lra.
    - auto.
    - auto. }
  destruct Hadj as [Fadj Eadj].
  set (a := (if b then (if s then -1 else 1) else 0)%Z) in *.
  assert (Hint : stoch_round (val thr) y = (Ztrunc y + a)%Z).
  { unfold stoch_round. fold s. unfold a, b.
    destruct (Rlt_bool_spec y 0) as [H0|H0]; subst s.
    - rewrite (Ztrunc_ceil y) in * by lra. rewrite (Rabs_left y) by auto.
      assert (Ec : Zfloor (- y) = (- Zceil y)%Z) by (unfold Zceil; lia).
      rewrite Ec. rewrite opp_IZR. replace (Rabs (y - IZR (Zceil y))) with (- y - - IZR (Zceil y)).
      2:{ pose proof (Zceil_ub y). rewrite Rabs_left1 by lra. lra. }
      destruct (Rlt_bool (val thr) (- y - - IZR (Zceil y))); ring.
    - rewrite (Ztrunc_floor y) in * by lra. rewrite (Rabs_pos_eq y) by auto.
      replace (Rabs (y - IZR (Zfloor y))) with (y - IZR (Zfloor y)).
      2:{ pose proof (Zfloor_lb y). rewrite Rabs_pos_eq by lra. lra. }
      destruct (Rlt_bool (val thr) (y - IZR (Zfloor y))); ring. }
  assert (Hsum : RN32 (IZR (Ztrunc y) + IZR a) = IZR (Ztrunc y + a) /\ Rabs (IZR (Ztrunc y + a)) < max32).
  { rewrite <- plus_IZR. destruct (Rle_or_lt (bpow radix2 23) (Rabs y)) as [Hge|Hlt].
    - assert (b = false) as Hb.
      { unfold b. rewrite <- (big_int y) by auto. rewrite Rminus_diag_eq, Rabs_R0 by reflexivity. apply Rlt_bool_false. auto. }
      unfold a. rewrite Hb. rewrite Z.add_0_r. rewrite <- (big_int y) by auto. split; [apply RN32_fmt; auto|].
      unfold y, val, max32. apply abs_B2R_lt_emax.
    - assert (Hz : (Z.abs (Ztrunc y) <= 2 ^ 23)%Z).
      { rewrite <- Ztrunc_abs. rewrite <- (Ztrunc_IZR (2 ^ 23)). apply Ztrunc_le. change (IZR (2 ^ 23)) with 8388608.
        replace 8388608 with (bpow radix2 23) by (simpl; lra). lra. }
      assert (Ha : (Z.abs a <= 1)%Z) by (unfold a; destruct b, s; lia).
      split; [apply RN32_fmt, fmt32_int; lia|].
      rewrite <- abs_IZR. unfold max32. rewrite <- (IZR_Zpower radix2 128) by lia. apply IZR_lt. 
      eapply Z.le_lt_trans with (2 ^ 31)%Z; [lia|reflexivity]. }
  destruct Hsum as [Hsum Hlt]. rewrite Hint.
  destruct (fadd_ok (ftrunc p) adj Ftr Fadj) as [Fsum Esum]; rewrite Etr, Eadj, Hsum in *; auto.
Qed.

Lemma stoch_huge thr y : 0 <= thr <= 1 -> max32 <= Rabs y -> (2 ^ 63 <= Z.abs (stoch_round thr y) - 1)%Z.
Proof.
  intros Ht H. assert (B : bpow radix2 65 <= max32) by (apply bpow_le; lia). change (bpow radix2 65) with (IZR 36893488147419103232) in B.
  assert (Hf : (2 ^ 65 <= Zfloor (Rabs y))%Z) by (apply Zfloor_lub; change (IZR (2 ^ 65)) with 36893488147419103232; lra).
  unfold stoch_round. destruct (Rlt_bool thr _), (Rlt_bool y 0); lia.
Qed.

Lemma q_stochastic_total mx thr scale zp x : (0 <= mx)%Z -> good_scale scale -> threshold thr ->
  q_stochastic mx thr (fdiv f_one scale) zp x =
  if stoch_dec scale zp thr x then Ok (clamp 0 mx (stoch_round (val thr) (scaled (val scale) (val x)) + zp)) else UB.
Proof.
  intros Hm Hs Ht. destruct (inv_ok scale Hs) as [Fi Ei]. pose proof (inv_nonzero scale Hs) as Ni.
  rewrite q_stochastic_float. set (inv := fdiv f_one scale) in *. unfold f32_to_i64.
  assert (NF : ~ finite (fmul x inv) -> ~ stoch_defined scale zp thr x ->
     bind (match f_to_Z (stoch_float thr (fmul x inv)) with Some z => i64 z | None => UB end) (fun q => integral <- i64 (q + zp) ;; Ok (clampZ 0 mx integral)) =
     if stoch_dec scale zp thr x then Ok (clamp 0 mx (stoch_round (val thr) (scaled (val scale) (val x)) + zp)) else UB).
  { intros H1 H2. rewrite f_to_Z_nonfinite by (apply stoch_float_nonfinite; auto). destruct (stoch_dec _ _ _ _); [contradiction|reflexivity]. }
  destruct (finite_dec x) as [F|F].
  2:{ apply NF; [apply fmul_nonfinite; auto|]. intros (H & _). contradiction. }
  destruct (fmul_cases x inv F Fi) as [(F' & E & B)|[E B]].
  2:{ apply NF; [rewrite E; unfold finite; cbn; discriminate|]. rewrite Ei in B. change (RN32 (val x * RN32 (1 / val scale))) with (scaled (val scale) (val x)) in B.
      intros (_ & H & _). apply stoch_huge with (thr := val thr) in B; [|apply Ht]. lia. }
  rewrite Ei in E, B. change (RN32 (val x * RN32 (1 / val scale))) with (scaled (val scale) (val x)) in *.
  destruct (stoch_float_ok thr (fmul x inv) F' Ht) as [Ff Ef]. rewrite f_to_Z_finite by auto. rewrite Ef, Ztrunc_IZR. rewrite E in *.
  unfold i64, in_i64. destruct (stoch_dec scale zp thr x) as [(_ & D1 & D2)|D].
  - set (q := stoch_round _ _) in *. rewrite (proj2 (Z.leb_le _ _)), (proj2 (Z.leb_le _ _)) by lia. cbn [andb bind].
    rewrite (proj2 (Z.leb_le _ _)), (proj2 (Z.leb_le _ _)) by lia. cbn [andb bind]. rewrite clampZ_clamp by lia. reflexivity.
  - unfold stoch_defined in D. set (q := stoch_round _ _) in *. destruct (_ && _) eqn:E1; cbn [bind]; [|reflexivity].
    destruct (_ && _) eqn:E2 at 1; cbn [bind]; [|reflexivity]. exfalso. apply D. repeat split; auto; lia.
Qed.

Lemma q_scalar_stoch_total din dout thr scale zp x : quant_type dout -> good_scale scale -> threshold thr ->
  q_scalar din dout RM_STOCHASTIC thr (fdiv f_one scale) zp x =
  if stoch_dec scale zp thr x then Ok (stoch_code dout (val scale) zp (val thr) (val x)) else UB.
Proof.
  intros Hd Hs Ht. pose proof (code_max_range dout Hd). unfold q_scalar, stoch_code.
  replace (specialised din dout RM_STOCHASTIC) with false by (destruct din, dout; reflexivity).
  cbn [quant_step_scalar]. apply q_stochastic_total; auto; lia.
Qed.

(** C36 for stochastic rounding, complete: every input buffer, every int64 zero point, every kernel set (there is no vector code in this mode) and
    schedule.  The call is undefined exactly when some element has no defined conversion. *)
Theorem C36_stochastic_every_input A nt oaddr din dout scale zp thr inm outm r :
  buffers_ok nt din dout inm outm -> good_scale scale -> threshold thr -> (- 2 ^ 63 <= zp < 2 ^ 63)%Z ->
  let n := numel din (length inm) in
  returns inm outm (quantize_call A nt oaddr din dout scale zp RM_STOCHASTIC thr inm outm) r ->
  ((exists i, (i < n)%nat /\ ~ stoch_defined scale zp thr (elem_at din inm i)) -> r = UB) /\
  ((forall i, (i < n)%nat -> stoch_defined scale zp thr (elem_at din inm i)) ->
   exists o, r = Ok o /\ length o = length outm /\
     forall i, (i < n)%nat -> code_at dout o i = stoch_code dout (val scale) zp (val thr) (val (elem_at din inm i))).
Proof.
  intros (Hfp & Hq & Hb & Hl & HS) Hsc Ht Hz n HR. unfold quantize_call in HR.
  assert (Hnt : (nt > 0)%nat) by (destruct HS; lia).
  assert (Hpe : (per_byte dout > 0)%nat) by (clear -Hq; destruct Hq as [->|[->| ->]]; cbn; lia).
  assert (NV : has_vec A din dout RM_STOCHASTIC = false) by (clear; unfold has_vec; destruct din, dout; reflexivity).
  split.
  - intros (i & Hi & HN). destruct (owner_exists (per_byte dout) n nt i Hpe Hnt Hi) as (t & Ht' & Hti).
    eapply quantize_ub with (t := t) (i := i); eauto.
    + destruct (q_vec _ _ _ _ _ _ _) eqn:E; auto. apply q_vec_has in E. congruence.
    + cbn [thr_of]. rewrite q_scalar_stoch_total by auto. destruct (stoch_dec _ _ _ _); [contradiction|reflexivity].
  - intros HI. set (C := fun i => stoch_code dout (val scale) zp (val thr) (val (elem_at din inm i))).
    apply quantize_core with (C := C) in HR; auto.
    + eexists. split; [exact HR|]. rewrite skipn_all, app_nil_r. split; [rewrite map_length, seq_length; auto|].
      intros i Hi. rewrite Hl. rewrite <- (app_nil_r (map _ _)). rewrite code_at_byte_of; auto.
      * fold n. rewrite cut_lt by auto. reflexivity.
      * intros j Hj. unfold C, stoch_code, clamp. pose proof (code_max_range dout Hq). lia.
      * rewrite bytes_for_per_byte by auto. fold n. clear -Hi Hq. destruct Hq as [->|[->| ->]]; cbn [per_byte]; lia.
    + intros i Hi. cbn [thr_of]. rewrite q_scalar_stoch_total by auto. destruct (stoch_dec _ _ _ _) as [D|D]; [reflexivity|].
      exfalso. apply D. apply HI; auto.
    + eexists. cbn [thr_of]. rewrite q_scalar_stoch_total by auto. destruct (stoch_dec _ _ _ _) as [D|D]; [reflexivity|].
      exfalso. apply D. destruct f_zero_ok as [F0 E0]. unfold stoch_defined. rewrite E0. unfold scaled. rewrite Rmult_0_l, RN32_0.
      rewrite stoch_round_int by apply Ht. repeat split; auto; lia.
    + congruence.
Qed.

(** ** The fused call *)
(** It uses int64 for all dtypes and has no vector code. *)
Definition fused_defined (rm : round_mode_t) (scale : f32) (zp : Z) (thr x : f32) : Prop :=
  match rm with
  | RM_NEAREST => conversion_defined DT_F32 DT_UINT2 scale zp x
  | RM_STOCHASTIC => stoch_defined scale zp thr x
  end.
Definition fused_dec rm scale zp thr x : {fused_defined rm scale zp thr x} + {~ fused_defined rm scale zp thr x} :=
  match rm with RM_NEAREST => conversion_dec DT_F32 DT_UINT2 scale zp x | RM_STOCHASTIC => stoch_dec scale zp thr x end.

Lemma quant_step_total rm mx thr scale zp x : (0 <= mx)%Z -> good_scale scale -> (rm = RM_STOCHASTIC -> threshold thr) ->
  quant_step_scalar rm mx thr (fdiv f_one scale) zp x =
  if fused_dec rm scale zp thr x then Ok (clamp 0 mx (match rm with RM_NEAREST => round_half_away (scaled (val scale) (val x)) | RM_STOCHASTIC => stoch_round (val thr) (scaled (val scale) (val x)) end + zp)) else UB.
Proof.
  intros Hm Hs Ht. destruct rm; cbn [quant_step_scalar fused_dec].
  2:{ rewrite q_stochastic_total by auto. destruct (stoch_dec _ _ _ _); reflexivity. }
  pose proof (round_scalar scale x Hs) as R. unfold q_nearest_i64, f32_to_i64. rewrite R. set (y := scaled (val scale) (val x)) in *.
  destruct (conversion_dec DT_F32 DT_UINT2 scale zp x) as [(F & B1 & B2)|N].
  - cbn [conv_limit] in B1, B2. fold y in B1, B2.
    assert (Hb : Rlt_bool (Rabs y) max32 = true).
    { apply Rlt_bool_true. destruct (Rlt_or_le (Rabs y) max32) as [|H]; auto. exfalso. apply rha_huge in H. lia. }
    destruct (finite_dec x); [|contradiction]. rewrite Hb.
    unfold i64, in_i64. rewrite (proj2 (Z.leb_le _ _)), (proj2 (Z.leb_le _ _)) by lia. cbn [andb bind].
    rewrite (proj2 (Z.leb_le _ _)), (proj2 (Z.leb_le _ _)) by lia. cbn [andb bind]. rewrite clampZ_clamp by lia. reflexivity.
  - unfold conversion_defined in N. cbn [conv_limit] in N. fold y in N. destruct (finite_dec x) as [F|F]; [|reflexivity].
    destruct (Rlt_bool_spec (Rabs y) max32) as [B|B]; [|reflexivity]. unfold i64, in_i64.
    destruct (_ && _) eqn:E1; cbn [bind]; [|reflexivity]. destruct (_ && _) eqn:E2 at 1; cbn [bind]; [|reflexivity].
    exfalso. apply N. repeat split; auto; lia.
Qed.

Lemma requant_actions d dq rm op n scale thr zp i : (i < n)%nat -> In (ract d dq rm op scale thr zp i) (requant_generic d dq rm op n scale thr zp).
Proof.
  intros Hi. unfold requant_generic, seq_loops. cbn [fold_left]. rewrite run_loop_blk by lia. cbn [fst]. 
  destruct (in_blk (ract d dq rm op scale thr zp) 0 1 n i) as (j & Ij & Hj & _); [lia| |].
  { unfold blk_end. rewrite Nat.sub_0_r, Nat.div_1_r. lia. }
  assert (j = i) by lia. subst j. apply in_or_app. right. exact Ij.
Qed.

Lemma ld_elem d inm i : float_type d -> ld d (slice (esize d * i) (esize d) inm) = elem_at d inm i.
Proof. intros [->| ->]; [reflexivity|]. cbn [ld elem_at]. change (esize DT_BF16) with 2%nat. apply f32_of_bf16_eq. Qed.

Lemma fused_ub A nt oaddr dt dq scale zp rm op thr inm outm r i :
  float_type dt -> quant_type dq -> length inm = length outm -> sizes_ok (length outm) (numel dt (length outm)) nt ->
  (i < numel dt (length outm))%nat ->
  quant_step_scalar rm (limit_max dq) (thr_of rm thr) (fdiv f_one scale) zp (elem_at dt inm i) = UB ->
  returns inm outm (fused_call A nt oaddr dt dq scale zp rm op thr inm outm) r -> r = UB.
Proof.
  intros Hfp Hq HL HS Hi HU HR. unfold fused_call in HR. rewrite HL in HR.
  rewrite (fused_jobs A nt oaddr (length outm) dt dq scale zp rm op thr Hfp Hq HS) in HR.
  apply returns_jobs in HR. destruct HR as (tr & HI & ->). set (n := numel dt (length outm)) in *.
  assert (Hnt : (nt > 0)%nat) by (destruct HS; lia).
  destruct (owner_exists 1 n nt i ltac:(lia) Hnt Hi) as (t & Ht & Hti).
  eapply run_trace_ub with (a := shift_action (esize dt * part_bound 1 n nt t) (esize dt * part_bound 1 n nt t) (ract dt dq rm op scale (thr_of rm thr) zp (i - part_bound 1 n nt t))).
  - eapply interleave_Forall; [exact HI|]. apply Forall_forall. intros l Hl. apply in_map_iff in Hl. destruct Hl as (u & <- & _).
    unfold f_job. destruct (_ <=? _)%nat; [constructor|]. apply Forall_map. eapply Forall_impl; [|apply requant_generic_quiet]. intros x. apply shift_quiet.
  - eapply interleave_In; [exact HI|apply in_map, in_seq; split; [apply Nat.le_0_l|exact Ht]|].
    unfold f_job. rewrite (proj2 (Nat.leb_gt _ _)) by lia. apply in_map. apply requant_actions. lia.
  - apply ub_shift. intros o. cbn [a_fn ract a_ioff a_ilen]. unfold requant_elem. rewrite ld_elem by auto. rewrite elem_at_skipn by auto.
    replace (part_bound 1 n nt t + (i - part_bound 1 n nt t))%nat with i by lia. rewrite HU. reflexivity.
Qed.

(** Bytes of one output element of the fused call. *)
Definition fused_element (dt dq : dtype) (scale : f32) (zp : Z) (rm : round_mode_t) (op : reduce_op) (thr : f32) (inm outm : mem) (i : nat) : mem :=
  let code := expected_code rm dq scale zp thr (elem_at dt inm i) in
  match dt with
  | DT_BF16 => let v := bf16_mul (bf16_of_f32 (f32_of_Z (code - zp))) (bf16_of_f32 scale) in
               le_bytes 2 (match op with RO_SET => v | RO_ADD => bf16_add (bf16_at outm i) v end)
  | _ => let v := fmul (f32_of_Z (code - zp)) scale in
         le_bytes 4 (bits_of_f32 (match op with RO_SET => v | RO_ADD => fadd (f32_at outm i) v end))
  end.

(** C36/C28, complete: the fused call for every input, every kernel set, both rounding modes and reduce ops. *)
Theorem C36_fused_every_input A nt oaddr dt dq scale zp rm op thr inm outm r :
  float_type dt -> quant_type dq -> length inm = length outm -> sizes_ok (length outm) (numel dt (length outm)) nt ->
  good_scale scale -> (Z.abs zp <= 2 ^ 62)%Z -> (rm = RM_STOCHASTIC -> threshold thr) ->
  let n := numel dt (length outm) in
  returns inm outm (fused_call A nt oaddr dt dq scale zp rm op thr inm outm) r ->
  ((exists i, (i < n)%nat /\ ~ fused_defined rm scale zp thr (elem_at dt inm i)) -> r = UB) /\
  ((forall i, (i < n)%nat -> fused_defined rm scale zp thr (elem_at dt inm i)) ->
   exists o, r = Ok o /\ length o = length outm /\
     (forall i, (i < n)%nat -> slice (stride dt * i) (stride dt) o = fused_element dt dq scale zp rm op thr inm outm i) /\
     (forall k, (stride dt * n <= k)%nat -> nth k o 0%Z = nth k outm 0%Z)).
Proof.
  intros Hfp Hq HL HS Hsc Hz Ht n HR. pose proof (code_max_range dq Hq) as Hm.
  assert (HT : quant_type dq -> forall x, quant_step_scalar rm (limit_max dq) (thr_of rm thr) (fdiv f_one scale) zp x =
     if fused_dec rm scale zp thr x then Ok (expected_code rm dq scale zp thr x) else UB).
  { intros _ x. replace (limit_max dq) with (code_max dq) by (clear -Hq; destruct Hq as [->|[->| ->]]; reflexivity).
    replace (thr_of rm thr) with (match rm with RM_NEAREST => f_zero | RM_STOCHASTIC => thr end) by (destruct rm; reflexivity).
    destruct rm; (rewrite quant_step_total; [|lia|auto|discriminate || auto]); cbn [fused_dec expected_code]; reflexivity. }
  split.
  - intros (i & Hi & HN). eapply fused_ub with (i := i); eauto. rewrite HT by auto. destruct (fused_dec _ _ _ _ _); [contradiction|reflexivity].
  - intros HI. set (E := fused_element dt dq scale zp rm op thr inm outm).
    assert (ES : esize dt = stride dt) by reflexivity.
    assert (EL : forall i, (i < n)%nat -> length (E i) = esize dt) by (intros; unfold E, fused_element; destruct Hfp as [->| ->]; apply le_bytes_length).
    pose proof (numel_le dt (length outm) Hfp) as Hn. fold n in Hn.
    unfold fused_call in HR. rewrite HL in HR.
    assert (HR' := fused_core A nt oaddr (length outm) dt dq scale zp rm op thr inm outm E r Hfp Hq HS ltac:(lia) ltac:(lia)).
    cbv zeta in HR'. fold n in HR'. apply HR' in HR; auto; clear HR'.
    + rewrite HR. eexists. split; [reflexivity|]. rewrite app_length, map_length, seq_length, skipn_length. split; [lia|]. split.
      * intros i Hi'. cbv zeta. rewrite slice_byteE; auto. destruct Hfp as [->| ->]; cbn; lia.
      * intros k Hk. rewrite app_nth2 by (rewrite map_length, seq_length; lia). rewrite map_length, seq_length.
        rewrite nth_skipn. f_equal. lia.
    + intros i Hi'. unfold requant_elem. rewrite ld_elem by auto. rewrite HT by auto.
      destruct (fused_dec _ _ _ _ _) as [D|D]; [|exfalso; apply D, HI; auto]. cbn [bind].
      pose proof (expected_range rm dq scale zp thr (elem_at dt inm i) Hq) as ER.
      unfold dq_i64, dq_i64_bf16, i64. rewrite in_i64_ok by lia. cbn [bind]. unfold E, fused_element, put_f32, put_bf16v.
      destruct Hfp as [->| ->], op; reflexivity.
Qed.

(** ** Scales whose reciprocal is not finite: zero, NaN, or so small that 1/scale overflows *)
Definition unusable_scale (s : f32) : Prop := nan s \/ (finite s /\ (val s = 0 \/ max32 <= Rabs (RN32 (1 / val s)))).
Lemma fdiv_unusable s : unusable_scale s -> ~ finite (fdiv f_one s).
Proof.
  intros [N|(F & [Z|O])].
  - unfold nan, finite in *. destruct s; discriminate.
  - unfold val, finite in *. destruct s as [sg|sg|sg pl e|sg m e B]; try discriminate. exfalso. revert Z. cbn [B2R]. intros Z. apply eq_0_F2R in Z. cbn in Z. destruct sg; discriminate.
  - assert (NZ : B2R 24 128 s <> 0). { intros Z. unfold val in O. rewrite Z in O. unfold Rdiv in O. rewrite Rinv_0, Rmult_0_r in O.  rewrite RN32_0, Rabs_R0 in O. pose proof (bpow_gt_0 radix2 128). unfold max32 in O. lra. }
    destruct f_one_ok as [F1 E1]. unfold fdiv, b32_div, finite.
    match goal with |- ~ (is_finite _ _ (Bdiv _ _ ?a ?b ?c ?d _ _) = true) => pose proof (Bdiv_correct 24 128 a b c d f_one s NZ) as C end.
    change (SpecFloat.emin 24 128) with (-149)%Z in C. cbn [round_mode] in C. unfold val, RN32, max32 in *. rewrite E1 in C.
    rewrite Rlt_bool_false in C by exact O. match type of C with B2FF _ _ ?b = _ => set (z := b) in *; clearbody z end.
    destruct z; discriminate.
Qed.

Lemma fmul_inv_nonfinite x inv : ~ finite inv -> ~ finite (fmul x inv).
Proof. unfold finite. intros H. destruct inv; try (exfalso; apply H; reflexivity); destruct x; cbn; discriminate. Qed.
Lemma q_scalar_unusable din dout rm thr scale zp x : unusable_scale scale -> q_scalar din dout rm thr (fdiv f_one scale) zp x = UB.
Proof.
  intros H. apply fdiv_unusable in H. pose proof (fmul_inv_nonfinite x _ H) as P. set (inv := fdiv f_one scale) in *. clearbody inv.
  unfold q_scalar. destruct (specialised din dout rm).
  - unfold q_nearest_i32, f32_to_i32. rewrite f_to_Z_nonfinite; auto. apply fround_nonfinite; auto.
  - destruct rm; cbn [quant_step_scalar].
    + unfold q_nearest_i64, f32_to_i64. rewrite f_to_Z_nonfinite; auto. apply fround_nonfinite; auto.
    + rewrite q_stochastic_float. unfold f32_to_i64. rewrite f_to_Z_nonfinite; auto. apply stoch_float_nonfinite; auto.
Qed.

(** With such a scale one element on a scalar path makes the call undefined, whatever the data.  (C21 shows that the library's own
    compute_quant_config_from_data can return the scale 0.) *)
Theorem C36_unusable_scale A nt oaddr din dout scale zp thr inm outm r :
  buffers_ok nt din dout inm outm -> unusable_scale scale ->
  let n := numel din (length inm) in
  (exists i, (i < n)%nat /\ vector_path A din dout oaddr n nt i = false) ->
  returns inm outm (quantize_call A nt oaddr din dout scale zp RM_NEAREST thr inm outm) r -> r = UB.
Proof.
  intros (Hfp & Hq & Hb & Hl & HS) Hsc n (i & Hi & HV) HR. unfold quantize_call in HR.
  assert (Hnt : (nt > 0)%nat) by (destruct HS; lia).
  assert (Hpe : (per_byte dout > 0)%nat) by (clear -Hq; destruct Hq as [->|[->| ->]]; cbn; lia).
  destruct (owner_exists (per_byte dout) n nt i Hpe Hnt Hi) as (t & Ht & Hti).
  eapply quantize_ub with (t := t) (i := i); eauto.
  - pose proof (vector_path_owner A din dout oaddr n nt t i Hq Hnt Ht Hti) as EV. rewrite HV in EV. symmetry. exact EV.
  - apply q_scalar_unusable; auto.
Qed.
(** In stochastic mode, and in the fused call, every non-empty call is undefined. *)
Theorem C36_unusable_scale_stochastic A nt oaddr din dout scale zp thr inm outm r :
  buffers_ok nt din dout inm outm -> unusable_scale scale -> (0 < numel din (length inm))%nat ->
  returns inm outm (quantize_call A nt oaddr din dout scale zp RM_STOCHASTIC thr inm outm) r -> r = UB.
Proof.
  intros (Hfp & Hq & Hb & Hl & HS) Hsc Hi HR. unfold quantize_call in HR.
  assert (Hnt : (nt > 0)%nat) by (destruct HS; lia).
  assert (Hpe : (per_byte dout > 0)%nat) by (clear -Hq; destruct Hq as [->|[->| ->]]; cbn; lia).
  assert (NV : has_vec A din dout RM_STOCHASTIC = false) by (clear; unfold has_vec; destruct din, dout; reflexivity).
  destruct (owner_exists (per_byte dout) (numel din (length inm)) nt 0 Hpe Hnt Hi) as (t & Ht & Hti).
  eapply quantize_ub with (t := t) (i := 0%nat); eauto.
  - destruct (q_vec _ _ _ _ _ _ _) eqn:E; auto. apply q_vec_has in E. congruence.
  - apply q_scalar_unusable; auto.
Qed.
Theorem C36_unusable_scale_fused A nt oaddr dt dq scale zp rm op thr inm outm r :
  float_type dt -> quant_type dq -> length inm = length outm -> sizes_ok (length outm) (numel dt (length outm)) nt -> unusable_scale scale ->
  (0 < numel dt (length outm))%nat ->
  returns inm outm (fused_call A nt oaddr dt dq scale zp rm op thr inm outm) r -> r = UB.
Proof.
  intros Hfp Hq HL HS Hsc Hi HR. eapply fused_ub with (i := 0%nat); eauto.
  pose proof (q_scalar_unusable DT_F32 DT_UINT2 rm (thr_of rm thr) scale zp (elem_at dt inm 0) Hsc) as Q.
  apply fdiv_unusable in Hsc. pose proof (fmul_inv_nonfinite (elem_at dt inm 0) _ Hsc) as P. destruct rm; cbn [quant_step_scalar].
  - unfold q_nearest_i64, f32_to_i64. rewrite f_to_Z_nonfinite; auto. apply fround_nonfinite; auto.
  - rewrite q_stochastic_float. unfold f32_to_i64. rewrite f_to_Z_nonfinite; auto. apply stoch_float_nonfinite; auto.
Qed.

(** ** Infinite scales: 1/scale is 0, every finite element gets the clamped zero point. *)
Definition infinite (s : f32) : Prop := exists b, s = B754_infinity 24 128 b.
Lemma fdiv_infinite s : infinite s -> finite (fdiv f_one s) /\ val (fdiv f_one s) = 0.
Proof. intros [b ->]. destruct b; split; reflexivity. Qed.
Lemma fmul_zero x inv : finite x -> finite inv -> val inv = 0 -> finite (fmul x inv) /\ val (fmul x inv) = 0.
Proof.
  intros F Fi E. destruct (fmul_ok x inv F Fi) as [A B]; rewrite E, Rmult_0_r, RN32_0 in *; auto. rewrite Rabs_R0. apply bpow_gt_0.
Qed.
Lemma rha_0 : round_half_away 0 = 0%Z.
Proof. unfold round_half_away. rewrite Rlt_bool_false by lra. rewrite Rplus_0_l. apply Zfloor_imp. cbn. lra. Qed.
Lemma vec_int_0 p : finite p -> val p = 0 -> vec_int p = 0%Z.
Proof.
  intros F E. pose proof (vec_int_finite p F) as H. rewrite E in H. destruct H as [_ ->]; [rewrite Rabs_R0; apply bpow_gt_0|].
  unfold vround_R. rewrite Rle_bool_true by lra. rewrite Rplus_0_l. rewrite RN32_fmt by (apply (fmt32_bpow (-1)); lia).
  rewrite Ztrunc_floor by lra. apply Zfloor_imp. cbn. lra.
Qed.

Theorem C36_infinite_scale A nt oaddr din dout scale zp rm thr inm outm r :
  buffers_ok nt din dout inm outm -> infinite scale -> (Z.abs zp <= 2 ^ 22)%Z -> (rm = RM_STOCHASTIC -> threshold thr) ->
  let n := numel din (length inm) in
  (forall i, (i < n)%nat -> finite (elem_at din inm i)) ->
  returns inm outm (quantize_call A nt oaddr din dout scale zp rm thr inm outm) r ->
  exists o, r = Ok o /\ length o = length outm /\ forall i, (i < n)%nat -> code_at dout o i = clamp 0 (code_max dout) zp.
Proof.
  intros (Hfp & Hq & Hb & Hl & HS) Hsc Hz Hthr n HI HR. unfold quantize_call in HR.
  pose proof (code_max_range dout Hq) as Hm. destruct (fdiv_infinite scale Hsc) as [Fi Ei].
  assert (QS : forall x, finite x -> q_scalar din dout rm (thr_of rm thr) (fdiv f_one scale) zp x = Ok (clamp 0 (code_max dout) zp)).
  { intros x F. destruct (fmul_zero x _ F Fi Ei) as [Fp Ep]. set (inv := fdiv f_one scale) in *. clearbody inv. unfold q_scalar.
    destruct (specialised din dout rm) eqn:ES.
    - unfold q_nearest_i32, f32_to_i32. rewrite fround_Z by auto. rewrite Ep, rha_0. unfold i32. rewrite wrap32_id by lia. rewrite in_i32_ok by lia. cbn [bind].
      rewrite in_i32_ok by lia. cbn [bind]. rewrite clampZ_clamp by lia. reflexivity.
    - destruct rm; cbn [quant_step_scalar thr_of].
      + unfold q_nearest_i64, f32_to_i64. rewrite fround_Z by auto. rewrite Ep, rha_0. unfold i64. rewrite in_i64_ok by lia. cbn [bind].
        rewrite in_i64_ok by lia. cbn [bind]. rewrite clampZ_clamp by lia. reflexivity.
      + rewrite q_stochastic_float. destruct (stoch_float_ok thr _ Fp (Hthr eq_refl)) as [Ff Ef]. unfold f32_to_i64. rewrite f_to_Z_finite by auto.
        rewrite Ef, Ep, Ztrunc_IZR, stoch_round_int by (apply Hthr; auto). unfold i64. rewrite in_i64_ok by lia. cbn [bind].
        rewrite in_i64_ok by lia. cbn [bind]. rewrite clampZ_clamp by lia. reflexivity. }
  assert (LN : has_vec A din dout rm = true -> forall x, finite x -> lane A (code_max dout) (fdiv f_one scale) (wrap32 zp) x = clamp 0 (code_max dout) zp).
  { intros HV x F. destruct (fmul_zero x _ F Fi Ei) as [Fp Ep]. set (inv := fdiv f_one scale) in *. clearbody inv. rewrite wrap32_id by lia.
    assert (X : lane_x86 (code_max dout) inv zp x = clamp 0 (code_max dout) zp).
    { unfold lane_x86. change (cvttps (fadd (fmul x inv) (if fge (fmul x inv) f_zero then f_half else f_nhalf))) with (vec_int (fmul x inv)).
      rewrite vec_int_0 by auto. rewrite Z.add_0_l, wrap32_id by lia. reflexivity. }
    destruct A; cbn [lane]; auto.
    assert (dout = DT_UINT8) as -> by (eapply has_vec_neon; eauto).
    unfold lane_neon, vcvta. rewrite fround_Z by auto. rewrite Ep, rha_0. change (code_max DT_UINT8) with 255%Z.
    unfold sat_u8, sat_i16, clamp. change (Z.max (-2147483648) (Z.min 2147483647 0)) with 0%Z. rewrite Z.add_0_l, wrap32_id by lia. lia. }
  set (C := fun _ : nat => clamp 0 (code_max dout) zp).
  apply quantize_core with (C := C) in HR; auto.
  - eexists. split; [exact HR|]. rewrite skipn_all, app_nil_r. split; [rewrite map_length, seq_length; auto|].
    intros i Hi. rewrite Hl. rewrite <- (app_nil_r (map _ _)). rewrite code_at_byte_of; auto.
    + fold n. rewrite cut_lt by auto. reflexivity.
    + intros j Hj. unfold C, clamp. lia.
    + rewrite bytes_for_per_byte by auto. fold n. clear -Hi Hq. destruct Hq as [->|[->| ->]]; cbn [per_byte]; lia.
  - eexists. apply QS. apply f_zero_ok.
Qed.
