(** PropsAnyInput.v -- C36, complete: the result of every quantize call with valid buffers, for every float, scale and zero point.
    Consequences: C12 for all data (packed codes in range, zero padding), unusable scales on vector paths, and the limit of C01's zero points. *)
From Coq Require Import ZArith List Lia Bool Arith ZifyBool ZifyNat Reals Lra.
From Flocq Require Import Core Binary Bits.
From Verif Require Import Base Floats Simd Dtypes Spec ApiSpec QuantKernels DequantKernels ExecFacts FloatFacts QuantFacts QuantKernelFacts
  QuantGenericFacts DequantFacts DequantGenericFacts QuantLanes Context ContextFacts Footprint QuantizeFacts DequantizeFacts Api
  FloatFacts2 FloatFacts3 PropsQuantize PathSpec NoAbort ScalarUB PropsPaths PropsExtreme PropsRoundTrip PropsBadScale AnyInputSpec.
Import ListNotations.
Local Open Scope R_scope.

Lemma vec_int_any p : vec_int p = x86_integer p.
Proof.
  unfold x86_integer. destruct (is_finite 24 128 p) eqn:F; cbn [andb].
  - destruct (Rlt_bool_spec (Rabs (val p)) (bpow radix2 31)) as [L|G].
    + rewrite (proj2 (vec_int_finite p F L)). unfold vround_R.
      destruct (Rle_bool_spec 0 (val p)), (Rlt_bool_spec (val p) 0); try lra; reflexivity.
    + apply vec_int_big; auto.
  - apply vec_int_nonfinite. unfold finite. congruence.
Qed.
Lemma vcvta_any p : vcvta p = neon_integer p.
Proof.
  unfold neon_integer. destruct (is_finite 24 128 p) eqn:F.
  - assert (N : is_nan 24 128 p = false) by (destruct p; cbn in F |- *; auto; discriminate). rewrite N.
    unfold vcvta. rewrite fround_Z by auto. unfold clamp. f_equal.
  - destruct p as [s|[|]|s pl e|s m e e0]; try discriminate F; reflexivity.
Qed.
Lemma lane_any A d scale zp x : is_q d -> (A = NEON -> d = DT_UINT8) -> lane A (code_max d) (fdiv f_one scale) (wrap32 zp) x = vector_result A d scale zp x.
Proof.
  intros Hd HA. unfold vector_result. fold (product scale x).
  assert (X : lane_x86 (code_max d) (fdiv f_one scale) (wrap32 zp) x = clamp 0 (code_max d) (wrap32 (x86_integer (product scale x) + wrap32 zp))).
  { rewrite <- vec_int_any. reflexivity. }
  destruct A; auto. rewrite (HA eq_refl). cbn [lane]. unfold lane_neon. rewrite vcvta_any. fold (product scale x).
  change (code_max DT_UINT8) with 255%Z. unfold Simd.sat_u8, Simd.sat_i16, clamp. lia.
Qed.

Lemma wrap32_range z : (- 2 ^ 31 <= wrap32 z < 2 ^ 31)%Z.
Proof. unfold wrap32. pose proof (Z.mod_pos_bound (z + 2147483648) 4294967296). lia. Qed.

Ltac fin Hm := repeat match goal with |- context [if ?b then _ else _] => let E := fresh "E" in destruct b eqn:E; cbn [bind] end;
  try reflexivity; try (rewrite clampZ_clamp by lia; reflexivity); exfalso; lia.
Lemma scalar_any din dout rm thr scale zp x : float_type din -> quant_type dout -> (rm = RM_STOCHASTIC -> threshold thr) ->
  q_scalar din dout rm (thr_of rm thr) (fdiv f_one scale) zp x = match scalar_result din dout rm thr scale zp x with Some c => Ok c | None => UB end.
Proof.
  intros Hfp Hq Ht. pose proof (code_max_range dout Hq) as Hm. unfold q_scalar, scalar_result. set (p := product scale x).
  assert (S : specialised din dout rm = (int_limit din dout rm =? 2 ^ 31)%Z) by (destruct Hfp as [->| ->], Hq as [->|[->| ->]], rm; reflexivity).
  rewrite S. destruct (Z.eqb_spec (int_limit din dout rm) (2 ^ 31)) as [EL|EL].
  - assert (rm = RM_NEAREST) as -> by (clear -EL; destruct rm; auto; cbn in EL; lia). rewrite EL.
    unfold q_nearest_i32, f32_to_i32. fold (product scale x). fold p. destruct (is_finite 24 128 p) eqn:F; cbn [andb].
    + rewrite fround_Z by exact F. set (k := round_half_away (val p)). clearbody k. unfold i32, in_i32. change (2 ^ 31)%Z with 2147483648%Z.
      fin Hm.
    + rewrite f_to_Z_nonfinite; [reflexivity|]. apply fround_nonfinite. unfold finite. congruence.
  - assert (EL' : int_limit din dout rm = (2 ^ 63)%Z).
    { clear -EL Hfp Hq. destruct Hfp as [->| ->], Hq as [->|[->| ->]], rm; cbn in *; auto; lia. }
    rewrite EL'. set (k := match rm with RM_NEAREST => _ | RM_STOCHASTIC => _ end).
    assert (G : quant_step_scalar rm (code_max dout) (thr_of rm thr) (fdiv f_one scale) zp x =
      (q <- (if is_finite 24 128 p then i64 k else UB) ;; integral <- i64 (q + zp) ;; Ok (clampZ 0 (code_max dout) integral))).
    { destruct rm; cbn [quant_step_scalar thr_of].
      - unfold q_nearest_i64, f32_to_i64. fold (product scale x). fold p. destruct (is_finite 24 128 p) eqn:F.
        + rewrite fround_Z by exact F. reflexivity.
        + rewrite f_to_Z_nonfinite; [reflexivity|]. apply fround_nonfinite. unfold finite. congruence.
      - rewrite q_stochastic_float. fold (product scale x). fold p. unfold f32_to_i64. destruct (is_finite 24 128 p) eqn:F.
        + destruct (stoch_float_ok thr p F (Ht eq_refl)) as [Ff Ef]. rewrite f_to_Z_finite by auto. rewrite Ef, Ztrunc_IZR. reflexivity.
        + rewrite f_to_Z_nonfinite; [reflexivity|]. apply stoch_float_nonfinite. unfold finite. congruence. }
    rewrite G. clear G. clearbody k. destruct (is_finite 24 128 p); cbn [andb bind]; [|reflexivity]. unfold i64, in_i64. change (2 ^ 63)%Z with 9223372036854775808%Z.
    fin Hm.
Qed.

(** the same work on +0 is defined whenever the work on some x is *)
Lemma scalar_zero din dout rm thr scale zp x c : (rm = RM_STOCHASTIC -> threshold thr) -> (- 2 ^ 63 <= zp < 2 ^ 63)%Z ->
  scalar_result din dout rm thr scale zp x = Some c -> exists z, scalar_result din dout rm thr scale zp f_zero = Some z.
Proof.
  intros Ht Hz H. unfold scalar_result in *. destruct (is_finite 24 128 (product scale x)) eqn:F; cbn [andb] in H; [|discriminate]. clear H.
  assert (Fi : finite (fdiv f_one scale)).
  { unfold product, finite in *. destruct (fdiv f_one scale); auto; destruct x; discriminate. }
  destruct f_zero_ok as [F0 E0].
  destruct (fmul_ok f_zero (fdiv f_one scale) F0 Fi) as [Fp Ep]; rewrite E0, Rmult_0_l, RN32_0 in *.
  { rewrite Rabs_R0. apply bpow_gt_0. }
  fold (product scale f_zero) in Fp, Ep. unfold finite in Fp. rewrite Fp, Ep.
  assert (K : match rm with RM_NEAREST => round_half_away 0 | RM_STOCHASTIC => stoch_round (val thr) 0 end = 0%Z).
  { destruct rm; [apply rha_0|]. change 0 with (IZR 0). apply stoch_round_int. apply Ht; auto. }
  rewrite K. cbn [andb]. rewrite Z.add_0_l. pose proof (wrap32_range zp).
  assert (L : int_limit din dout rm = (2 ^ 31)%Z \/ int_limit din dout rm = (2 ^ 63)%Z) by (destruct rm, din, dout; cbn; auto).
  destruct L as [-> | ->].
  - rewrite Z.eqb_refl. destruct (_ && _)%bool eqn:E; [eauto|]. lia.
  - change (2 ^ 63 =? 2 ^ 31)%Z with false. cbv iota. destruct (_ && _)%bool eqn:E; [eauto|]. lia.
Qed.

Lemma quantize_result_range A nt oaddr din dout rm thr scale zp inm i c : quant_type dout ->
  quantize_result A nt oaddr din dout rm thr scale zp inm i = Some c -> (0 <= c <= code_max dout)%Z.
Proof.
  intros Hq. pose proof (code_max_range dout Hq) as Hm.
  assert (S : scalar_result din dout rm thr scale zp (elem_at din inm i) = Some c -> (0 <= c <= code_max dout)%Z).
  { unfold scalar_result. destruct (_ && _ && _)%bool; [|discriminate]. intros [= <-]. unfold clamp. lia. }
  unfold quantize_result. destruct rm; auto. destruct (vector_path _ _ _ _ _ _ _); auto. intros [= <-]. unfold vector_result, clamp. lia.
Qed.

(** C36, complete: every kernel set, dtype pair, data, scale, int64 zero point, rounding mode, thread count, output address and schedule. *)
Theorem C36_complete A nt oaddr din dout scale zp rm thr inm outm r :
  buffers_ok nt din dout inm outm -> (rm = RM_STOCHASTIC -> threshold thr) -> (- 2 ^ 63 <= zp < 2 ^ 63)%Z ->
  let n := numel din (length inm) in
  let code := quantize_result A nt oaddr din dout rm thr scale zp inm in
  returns inm outm (quantize_call A nt oaddr din dout scale zp rm thr inm outm) r ->
  ((exists i, (i < n)%nat /\ code i = None) -> r = UB) /\
  ((forall i, (i < n)%nat -> code i <> None) ->
   exists o, r = Ok o /\ length o = length outm /\
     (forall i, (i < n)%nat -> code i = Some (code_at dout o i)) /\
     (forall k, (k < length o)%nat -> nth k o 0%Z = packed_byte dout n (code_at dout o) k)).
Proof.
  intros (Hfp & Hq & Hb & Hl & HS) Hthr Hz n code HR. unfold quantize_call in HR.
  assert (Hnt : (nt > 0)%nat) by (destruct HS; lia).
  assert (Hpe : (per_byte dout > 0)%nat) by (clear -Hq; destruct Hq as [->|[->| ->]]; cbn; lia).
  assert (L : forall t, (t < nt)%nat -> (part_bound (per_byte dout) n nt (S t) <= n)%nat) by (intros t Ht; apply part_le; auto).
  assert (NS : rm = RM_STOCHASTIC -> has_vec A din dout rm = false) by (intros ->; clear; unfold has_vec; destruct din, dout; reflexivity).
  (* which of the two formulas applies to element i of job t *)
  assert (HC : forall t i, (t < nt)%nat -> (part_bound (per_byte dout) n nt t <= i < part_bound (per_byte dout) n nt (S t))%nat ->
    code i = if q_vec A din dout rm (oaddr + Z.of_nat (part_bound (per_byte dout) n nt t / per_byte dout))
                   (part_bound (per_byte dout) n nt (S t) - part_bound (per_byte dout) n nt t) (i - part_bound (per_byte dout) n nt t)
             then Some (vector_result A dout scale zp (elem_at din inm i)) else scalar_result din dout rm thr scale zp (elem_at din inm i)).
  { intros t i Ht Hi. unfold code, quantize_result. destruct rm.
    - fold n. rewrite (vector_path_owner A din dout oaddr n nt t i Hq Hnt Ht Hi). reflexivity.
    - destruct (q_vec _ _ _ _ _ _ _) eqn:E; auto. apply q_vec_has in E. rewrite NS in E by auto. discriminate. }
  split.
  - intros (i & Hi & HN). destruct (owner_exists (per_byte dout) n nt i Hpe Hnt Hi) as (t & Ht & Hti).
    rewrite (HC t i Ht Hti) in HN. destruct (q_vec _ _ _ _ _ _ _) eqn:HV in HN; [discriminate|].
    eapply quantize_ub with (t := t) (i := i); eauto. rewrite scalar_any by auto. rewrite HN. reflexivity.
  - intros HI. set (C := fun i => match code i with Some c => c | None => 0%Z end).
    assert (HCc : forall i, (i < n)%nat -> code i = Some (C i)).
    { intros i Hi. specialize (HI i Hi). unfold C. destruct (code i); congruence. }
    assert (HCr : forall i, (i < n)%nat -> (0 <= C i <= code_max dout)%Z).
    { intros i Hi. apply HCc in Hi. eapply quantize_result_range; [exact Hq|exact Hi]. }
    apply quantize_core_any with (C := C) in HR; auto.
    + assert (CA : forall i, (i < n)%nat -> code_at dout (map (byte_of dout (cut n C)) (seq 0 (length outm))) i = C i).
      { intros i Hi. rewrite Hl. rewrite <- (app_nil_r (map _ _)). rewrite code_at_byte_of; auto.
        - fold n. rewrite cut_lt by auto. reflexivity.
        - rewrite bytes_for_per_byte by auto. fold n. clear -Hi Hq. destruct Hq as [->|[->| ->]]; cbn [per_byte]; lia. }
      eexists. split; [exact HR|]. rewrite skipn_all, app_nil_r. rewrite map_length, seq_length. split; [auto|]. fold n. split.
      * intros i Hi. rewrite CA by auto. auto.
      * intros k Hk. rewrite nth_map_seq by auto. rewrite byte_of_packed by auto. unfold packed_byte. f_equal. apply map_ext. intros j. cbv zeta. rewrite ?Nat.add_0_l.
        destruct (Nat.ltb_spec (codes_per_byte dout * k + j) n); auto. rewrite CA by auto. reflexivity.
    + intros t i Ht Hi E. fold n in Hi, E. specialize (L t Ht). rewrite scalar_any by auto.
      assert (K := HCc i ltac:(lia)). rewrite (HC t i Ht Hi), E in K. rewrite K. reflexivity.
    + intros t i Ht Hi E. fold n in Hi, E. specialize (L t Ht). rewrite scalar_any by auto.
      assert (K := HCc i ltac:(lia)). rewrite (HC t i Ht Hi), E in K.
      destruct (scalar_zero _ _ _ _ _ _ _ _ Hthr Hz K) as (z & ->). eauto.
    + intros t i Ht Hi E. fold n in Hi, E. specialize (L t Ht).
      assert (K := HCc i ltac:(lia)). rewrite (HC t i Ht Hi), E in K. injection K as <-.
      apply lane_any; auto. intros ->. apply q_vec_has in E. assert (rm = RM_NEAREST) as -> by (destruct rm; auto; rewrite NS in E by auto; discriminate).
      eapply has_vec_neon; eauto.
Qed.

(** C12 for all data: whatever the floats, scale, zero point and threshold, a call either has undefined behaviour or stores, in every byte of the
    output, codes between 0 and 2^bits-1 at their bit positions and zero bits behind the last code. *)
Theorem C12_any_data A nt oaddr din dout scale zp rm thr inm outm r :
  buffers_ok nt din dout inm outm -> (rm = RM_STOCHASTIC -> threshold thr) -> (- 2 ^ 63 <= zp < 2 ^ 63)%Z ->
  let n := numel din (length inm) in
  returns inm outm (quantize_call A nt oaddr din dout scale zp rm thr inm outm) r ->
  r = UB \/
  exists o, r = Ok o /\ length o = length outm /\ Forall is_byte o /\
    (forall k, (k < length o)%nat -> nth k o 0%Z = packed_byte dout n (code_at dout o) k) /\
    (forall i, (i < n)%nat -> (0 <= code_at dout o i <= code_max dout)%Z) /\
    (forall i, (n <= i < codes_per_byte dout * length o)%nat -> code_at dout o i = 0%Z).
Proof.
  intros HB Hthr Hz n HR. pose proof HB as (Hfp & Hq & Hb & Hl & HS).
  destruct (C36_complete A nt oaddr din dout scale zp rm thr inm outm r HB Hthr Hz HR) as [HU HK]. fold n in HU, HK.
  set (code := quantize_result A nt oaddr din dout rm thr scale zp inm) in *.
  assert (D : (exists i, (i < n)%nat /\ code i = None) \/ (forall i, (i < n)%nat -> code i <> None)).
  { clear. induction n as [|m IH]; [right; lia|]. destruct IH as [(i & Hi & E)|IH]; [left; exists i; split; auto; lia|].
    destruct (code m) eqn:E; [|left; exists m; split; auto; lia]. right. intros i Hi. destruct (Nat.eq_dec i m) as [->|N]; [congruence|apply IH; lia]. }
  destruct D as [D|D]; [left; auto|right]. destruct (HK D) as (o & -> & Lo & Hc & Hp). exists o. split; auto. split; auto.
  assert (Rg : forall i, (i < n)%nat -> (0 <= code_at dout o i <= code_max dout)%Z).
  { intros i Hi. eapply quantize_result_range; [exact Hq|apply Hc; auto]. }
  assert (Eo : o = map (byte_of dout (cut n (code_at dout o))) (seq 0 (length o))).
  { apply list_ext; [rewrite map_length, seq_length; reflexivity|]. intros k Hk. rewrite Hp by auto. rewrite nth_map_seq by auto. rewrite byte_of_packed by auto.
    rewrite Nat.add_0_l. reflexivity. }
  assert (PB : forall k, (k < length o)%nat -> is_byte (nth k o 0%Z)).
  { intros k Hk. rewrite Hp by auto. apply packed_byte_range; auto. intros i. unfold code_at, code_max. clear -Hq.
    match goal with |- (0 <= ?a mod ?b <= _)%Z => pose proof (Z.mod_pos_bound a b) as M end. destruct Hq as [->|[->| ->]]; cbn in *; lia. }
  split; [apply Forall_forall; intros b Hb'; apply In_nth with (d := 0%Z) in Hb'; destruct Hb' as (k & Hk & <-); apply PB; auto|].
  split; auto. split; auto. intros i Hi. rewrite codes_per_byte_q in Hi by auto.
  rewrite Eo. rewrite Lo, Hl. fold n. rewrite <- (app_nil_r (map _ _)). rewrite code_at_byte_of; auto; [apply cut_ge; lia|].
  rewrite Lo, Hl in Hi. apply Hi.
Qed.

(** Scales whose reciprocal is not finite (0, NaN, subnormal): C36_unusable_scale shows that one element on a scalar path makes the call undefined.
    When every element is on a vector path nothing is undefined, but the codes carry no information about the data: on x86 every code is 0 (or, for a
    negative zero point, the maximum), on NEON it only depends on the sign of the element. *)
Lemma product_unusable scale x : unusable_scale scale -> ~ finite (product scale x).
Proof. intros H. apply fmul_inv_nonfinite, fdiv_unusable; auto. Qed.
Theorem C36_unusable_scale_vector A nt oaddr din dout scale zp thr inm outm r :
  x86_vector A -> buffers_ok nt din dout inm outm -> unusable_scale scale -> (- 2 ^ 30 <= zp < 2 ^ 31)%Z ->
  let n := numel din (length inm) in
  (forall i, (i < n)%nat -> vector_path A din dout oaddr n nt i = true) ->
  returns inm outm (quantize_call A nt oaddr din dout scale zp RM_NEAREST thr inm outm) r ->
  exists o, r = Ok o /\ length o = length outm /\ forall i, (i < n)%nat -> code_at dout o i = if (zp <? 0)%Z then code_max dout else 0%Z.
Proof.
  intros HA HB Hu Hz n HV HR. pose proof HB as (Hfp & Hq & _). pose proof (code_max_range dout Hq) as Hm.
  destruct (C36_complete A nt oaddr din dout scale zp RM_NEAREST thr inm outm r HB) as [_ HK]; auto; [discriminate|lia|]. fold n in HK.
  assert (E : forall i, (i < n)%nat -> quantize_result A nt oaddr din dout RM_NEAREST thr scale zp inm i = Some (if (zp <? 0)%Z then code_max dout else 0%Z)).
  { intros i Hi. unfold quantize_result. fold n. rewrite HV by auto. f_equal. unfold vector_result.
    set (p := product scale (elem_at din inm i)). assert (NF : is_finite 24 128 p = false).
    { pose proof (product_unusable scale (elem_at din inm i) Hu) as P. unfold finite in P. fold p in P. destruct (is_finite 24 128 p); auto. exfalso; auto. }
    assert (X : clamp 0 (code_max dout) (wrap32 (x86_integer p + wrap32 zp)) = if (zp <? 0)%Z then code_max dout else 0%Z).
    { unfold x86_integer. rewrite NF. cbn [andb].
      assert (W : wrap32 zp = zp) by (unfold wrap32; rewrite Z.mod_small by lia; lia). rewrite W.
      unfold clamp, wrap32. destruct (Z.ltb_spec zp 0).
      - assert ((- 2 ^ 31 + zp + 2147483648) mod 4294967296 = zp + 4294967296)%Z; [|lia]. symmetry. apply Z.mod_unique with (q := (-1)%Z); lia.
      - rewrite Z.mod_small by lia. lia. }
    destruct HA as [->|[->|[->| ->]]]; exact X. }
  destruct HK as (o & -> & Lo & Hc & _); [intros i Hi; rewrite E by auto; discriminate|].
  exists o. split; auto. split; auto. intros i Hi. specialize (Hc i Hi). rewrite E in Hc by auto. injection Hc as ->. reflexivity.
Qed.

(** NEON (f32 to uint8): the product is NaN for NaN or zero elements (for scale 0: 0 * infinity) and for a NaN scale -- the code is the clamped zero point --
    and an infinity otherwise -- the code is an end of the range chosen by the sign. *)
Theorem C36_unusable_scale_neon nt oaddr din scale zp thr inm outm r :
  buffers_ok nt din DT_UINT8 inm outm -> unusable_scale scale -> (- 2 ^ 30 <= zp <= 2 ^ 30)%Z ->
  let n := numel din (length inm) in
  (forall i, (i < n)%nat -> vector_path NEON din DT_UINT8 oaddr n nt i = true) ->
  returns inm outm (quantize_call NEON nt oaddr din DT_UINT8 scale zp RM_NEAREST thr inm outm) r ->
  exists o, r = Ok o /\ length o = length outm /\
    forall i, (i < n)%nat ->
      let p := product scale (elem_at din inm i) in
      code_at DT_UINT8 o i = if is_nan 24 128 p then clamp 0 255 zp
                             else if Bsign 24 128 p then (if (zp <? 0)%Z then 255 else 0)%Z else (if (0 <? zp)%Z then 0 else 255)%Z.
Proof.
  intros HB Hu Hz n HV HR. pose proof HB as (Hfp & Hq & _).
  destruct (C36_complete NEON nt oaddr din DT_UINT8 scale zp RM_NEAREST thr inm outm r HB) as [_ HK]; auto; [discriminate|lia|]. fold n in HK.
  assert (E : forall i, (i < n)%nat -> quantize_result NEON nt oaddr din DT_UINT8 RM_NEAREST thr scale zp inm i =
     Some (let p := product scale (elem_at din inm i) in if is_nan 24 128 p then clamp 0 255 zp
           else if Bsign 24 128 p then (if (zp <? 0)%Z then 255 else 0)%Z else (if (0 <? zp)%Z then 0 else 255)%Z)).
  { intros i Hi. unfold quantize_result. fold n. rewrite HV by auto. f_equal. unfold vector_result. cbv zeta.
    set (p := product scale (elem_at din inm i)). assert (NF : is_finite 24 128 p = false).
    { pose proof (product_unusable scale (elem_at din inm i) Hu) as P. unfold finite in P. fold p in P. destruct (is_finite 24 128 p); auto. exfalso; auto. }
    assert (W : wrap32 zp = zp) by (unfold wrap32; rewrite Z.mod_small by lia; lia). rewrite W. change (code_max DT_UINT8) with 255%Z.
    unfold neon_integer. rewrite NF. destruct (is_nan 24 128 p); [rewrite Z.add_0_l, W; reflexivity|]. unfold clamp, wrap32. destruct (Bsign 24 128 p).
    - destruct (Z.ltb_spec zp 0).
      + assert ((- 2 ^ 31 + zp + 2147483648) mod 4294967296 = zp + 4294967296)%Z; [|lia]. symmetry. apply Z.mod_unique with (q := (-1)%Z); lia.
      + rewrite Z.mod_small by lia. lia.
    - destruct (Z.ltb_spec 0 zp).
      + assert ((2 ^ 31 - 1 + zp + 2147483648) mod 4294967296 = zp - 1)%Z; [|lia]. symmetry. apply Z.mod_unique with (q := 1%Z); lia.
      + rewrite Z.mod_small by lia. lia. }
  destruct HK as (o & -> & Lo & Hc & _); [intros i Hi; rewrite E by auto; discriminate|].
  exists o. split; auto. split; auto. intros i Hi. specialize (Hc i Hi). rewrite E in Hc by auto. injection Hc as H. symmetry. exact H.
Qed.

(** C01 asks for zero points of at most 2^22 in magnitude.  Some such bound is needed: the x86 vector loops round y = 2^23+1 to 2^23+2 (adding one half in
    single precision is not exact there), and with zero point -2^23 this is not hidden by the clamp.  Scalar and NEON code store the documented code 1. *)
Lemma val_2_23_1 : finite (f32_of_bits 0x4B000001) /\ val (f32_of_bits 0x4B000001) = 8388609.
Proof. split; [reflexivity|]. unfold val. cbn. unfold F2R. cbn. lra. Qed.
Lemma one_good : good_scale f_one.
Proof.
  destruct f_one_ok as [_ E]. unfold good_scale. rewrite E. split; [lra|]. replace (1 / 1) with 1 by field. rewrite RN32_fmt by (apply (fmt32_int 1); lia).
  rewrite Rabs_pos_eq by lra. unfold max32. change 1 with (bpow radix2 0). apply bpow_lt. lia.
Qed.
Lemma RN32_tie : RN32 (8388609 + / 2) = 8388610.
Proof.
  unfold RN32, round, F2R, scaled_mantissa, cexp.
  assert (Hm : mag radix2 (8388609 + / 2) = 24%Z :> Z) by (apply mag_unique; rewrite Rabs_pos_eq by lra; simpl; lra).
  rewrite Hm. change (FLT_exp (-149) 24 24) with 0%Z. cbn [Fnum Fexp]. change (- (0))%Z with 0%Z. change (bpow radix2 0) with 1. rewrite !Rmult_1_r.
  unfold Znearest. rewrite (Zfloor_imp 8388609) by (simpl; lra). rewrite Rcompare_Eq by lra.
  rewrite (Zceil_imp 8388610) by (simpl; lra). reflexivity.
Qed.
Theorem C01_zero_point_limit_refuted A nt oaddr thr inm outm r :
  x86_vector A -> buffers_ok nt DT_F32 DT_UINT8 inm outm ->
  let n := numel DT_F32 (length inm) in
  let zp := (- 2 ^ 23)%Z in
  (forall i, (i < n)%nat -> val (f32_at inm i) = 8388609 /\ finite (f32_at inm i)) ->
  returns inm outm (quantize_call A nt oaddr DT_F32 DT_UINT8 f_one zp RM_NEAREST thr inm outm) r ->
  exists o, r = Ok o /\
    forall i, (i < n)%nat ->
      code_at DT_UINT8 o i = (if vector_path A DT_F32 DT_UINT8 oaddr n nt i then 2 else 1)%Z /\
      quant_code DT_UINT8 (val f_one) zp (val (f32_at inm i)) = 1%Z.
Proof.
  intros HA HB n zp HX HR. destruct f_one_ok as [F1 E1]. destruct (inv_ok f_one one_good) as [Fi Ei].
  assert (I1 : val (fdiv f_one f_one) = 1). { rewrite Ei, E1. replace (1 / 1) with 1 by field. apply RN32_fmt. apply (fmt32_int 1). lia. }
  assert (F89 : fmt32 8388609) by (apply (fmt32_int 8388609); lia).
  assert (P : forall x, finite x -> val x = 8388609 -> finite (product f_one x) /\ val (product f_one x) = 8388609).
  { intros x Fx Ex. unfold product. destruct (fmul_ok x (fdiv f_one f_one) Fx Fi) as [Fp Ep]; rewrite Ex, I1, Rmult_1_r, RN32_fmt in * by auto; auto.
    rewrite Rabs_pos_eq by lra. unfold max32. apply Rlt_trans with (bpow radix2 24); [simpl; lra|apply bpow_lt; lia]. }
  assert (RH : round_half_away 8388609 = 8388609%Z) by apply rha_IZR.
  destruct (C36_complete A nt oaddr DT_F32 DT_UINT8 f_one zp RM_NEAREST thr inm outm r HB) as [_ HK]; auto; [discriminate|unfold zp; lia|]. fold n in HK.
  assert (E : forall i, (i < n)%nat -> quantize_result A nt oaddr DT_F32 DT_UINT8 RM_NEAREST thr f_one zp inm i =
     Some (if vector_path A DT_F32 DT_UINT8 oaddr n nt i then 2 else 1)%Z).
  { intros i Hi. destruct (HX i Hi) as [Ex Fx]. change (f32_at inm i) with (elem_at DT_F32 inm i) in *. destruct (P _ Fx Ex) as [Fp Ep].
    unfold quantize_result. fold n. unfold vector_result, scalar_result, x86_integer. unfold finite in Fp.
    set (p := product f_one (elem_at DT_F32 inm i)) in *. clearbody p. destruct (vector_path _ _ _ _ _ _ _).
    - f_equal. assert (X : (if is_finite 24 128 p && Rlt_bool (Rabs (val p)) (bpow radix2 31) then Ztrunc (RN32 (val p + (if Rlt_bool (val p) 0 then - / 2 else / 2))) else (- 2 ^ 31)%Z) = 8388610%Z).
      { rewrite Fp, Ep. rewrite Rlt_bool_true by (rewrite Rabs_pos_eq by lra; simpl; lra). rewrite Rlt_bool_false by lra. cbn [andb]. rewrite RN32_tie. apply Ztrunc_IZR. }
      destruct HA as [->|[->|[->| ->]]]; rewrite X; reflexivity.
    - rewrite Fp, Ep, RH. reflexivity. }
  destruct HK as (o & -> & _ & Hc & _); [intros i Hi; rewrite E by auto; discriminate|].
  exists o. split; auto. intros i Hi. split.
  - specialize (Hc i Hi). rewrite E in Hc by auto. injection Hc as H. symmetry. exact H.
  - destruct (HX i Hi) as [Ex _]. rewrite Ex, E1. unfold quant_code, scaled. replace (1 / 1) with 1 by field. rewrite (RN32_fmt 1) by (apply (fmt32_int 1); lia).
    rewrite Rmult_1_r, (RN32_fmt _ F89), RH. reflexivity.
Qed.
