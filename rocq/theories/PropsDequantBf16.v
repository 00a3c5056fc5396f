(** PropsDequantBf16.v -- dequantize to bf16: C07, C08, C13 (bf16 outputs), C28 (bf16). *)
From Coq Require Import ZArith List Lia Bool Arith ZifyBool ZifyNat Permutation Reals Lra.
From Flocq Require Import Core Relative Binary Bits.
From Verif Require Import Base Floats Simd Dtypes Spec ApiSpec QuantKernels DequantKernels ExecFacts FloatFacts QuantFacts QuantKernelFacts
  QuantGenericFacts DequantFacts DequantGenericFacts QuantLanes Context ContextFacts Footprint QuantizeFacts DequantizeFacts Api PropsQuantize Schedule
  PropsMemory FloatFacts2 PropsDequantize PropsRoundTrip Bf16Spec Bf16Facts RoundTripFacts PropsIdempotent PropsBf16 FloatFacts3.
Import ListNotations.

Ltac Zify.zify_post_hook ::= Z.div_mod_to_equations.

(** ** Vocabulary *)
Definition avx512 (A : arch) : bool := match A with AVX512F | AVX512BF16 => true | _ => false end.
(** Elements per vector iteration when dequantizing to bf16 on AVX-512. *)
Definition bf16_block (d : dtype) : nat := match d with DT_UINT8 => 64 | DT_UINT4 => 128 | DT_UINT2 => 256 | _ => 0 end.
(** Is element [i] of [n] handled by an AVX-512 iteration?  The thread that owns it works on [lo, hi) and handles whole blocks. *)
Definition bf16_vector_path (A : arch) (d : dtype) (n nt i : nat) : bool :=
  avx512 A && existsb (fun t =>
    let lo := part_bound (codes_per_byte d) n nt t in
    let hi := part_bound (codes_per_byte d) n nt (S t) in
    (lo <=? i) && (i <? hi) && (i - lo <? bf16_block d * ((hi - lo) / bf16_block d))) (seq 0 nt).
(** The float that is rounded to bf16: (code - zp) * scale, or on the uint4 and uint2 vector path one fused multiply-add
    code * scale + b with the rounded product b = (-zp) * scale. *)
Definition fma_value (scale : f32) (zp code : Z) : f32 := ffma (f32_of_Z code) scale (fmul (b32_opp (f32_of_Z zp)) scale).
Definition bf16_source (d : dtype) (vec : bool) (scale : f32) (zp code : Z) : f32 :=
  match d with DT_UINT8 => dequant_value scale zp code | _ => if vec then fma_value scale zp code else dequant_value scale zp code end.
(** The conversion to bf16: the class constructor, or the CPU's / the emulated vector conversion (C17, C18). *)
Definition bf16_convert (A : arch) (vec : bool) (x : f32) : Z :=
  if vec then match A with AVX512BF16 => cvtneps_pbh_bits (bits_of_f32 x) | _ => cvt_ps_to_bf16_sw_bits (bits_of_f32 x) end else bf16_of_f32 x.
(** The bf16 stored for a code over the old bf16 [old]. *)
Definition bf16_result (A : arch) (d : dtype) (vec : bool) (op : reduce_op) (scale : f32) (zp code old : Z) : Z :=
  let v := bf16_source d vec scale zp code in
  match op with
  | RO_SET => bf16_convert A vec v
  | RO_ADD => if vec then bf16_convert A true (fadd v (bf16_to_f32 old)) else bf16_add old (bf16_of_f32 v)
  end.

Lemma convert_range A vec x : (0 <= bf16_convert A vec x < 65536)%Z.
Proof.
  pose proof (bits_range x) as B. unfold bf16_convert. set (u := bits_of_f32 x) in *. clearbody u.
  assert (S : (0 <= cvt_ps_to_bf16_sw_bits u < 65536)%Z).
  { unfold cvt_ps_to_bf16_sw_bits. cbv zeta. rewrite !shr16. set (r := ((u + _) mod 4294967296)%Z).
    assert (0 <= r < 4294967296)%Z by (apply Z.mod_pos_bound; lia).
    destruct (_ && _); [|lia]. set (w := ((r / 65536 + 1) mod 4294967296)%Z). assert (0 <= w)%Z by (apply Z.mod_pos_bound; lia). lia. }
  assert (H : (0 <= cvtneps_pbh_bits u < 65536)%Z).
  { unfold cvtneps_pbh_bits. cbv zeta. rewrite !shr16. assert (U : (0 <= u / 65536 < 65536)%Z) by lia.
    destruct (_ =? _)%Z.
    - split; [apply Z.land_nonneg; lia|]. apply Z.le_lt_trans with 32768%Z; [|lia].
      change 32768%Z with (2 ^ 15)%Z. rewrite Z.land_comm. set (w := (u / 65536)%Z). 
      assert (E : Z.land (2 ^ 15) w = (if Z.testbit w 15 then 2 ^ 15 else 0)%Z).
      { apply Z.bits_inj'. intros n Hn. rewrite Z.land_spec, Z.pow2_bits_eqb by lia.
        destruct (Z.eqb_spec 15 n) as [<-|N]; cbn [andb]; [destruct (Z.testbit w 15); [rewrite Z.pow2_bits_eqb by lia; reflexivity|rewrite Z.bits_0; reflexivity]|].
        destruct (Z.testbit w 15); [rewrite Z.pow2_bits_eqb by lia; destruct (Z.eqb_spec 15 n); [congruence|reflexivity]|rewrite Z.bits_0; reflexivity]. }
      rewrite E. destruct (Z.testbit w 15); lia.
    - destruct (_ && _).
      + rewrite lor64 by lia. destruct (Z.testbit _ 6) eqn:T; [lia|]. rewrite testbit6 in T by lia. set (w := (u / 65536)%Z) in *. clearbody w. clear - U T. lia.
      + set (r := ((u + _) mod 4294967296)%Z). assert (0 <= r < 4294967296)%Z by (apply Z.mod_pos_bound; lia). lia. }
  destruct vec; [destruct A; auto|]. unfold bf16_of_f32. 
  destruct (decode x) as (s & a & E & D). inversion D as [Ha|Ha|Ha]; rewrite E.
  1,2: rewrite bf16_of_bits_num by lia; pose proof (rne16_range a ltac:(lia)); unfold hsbit; destruct s; lia.
  destruct (bf16_of_bits_nan s a Ha) as (b & -> & Hb & _). unfold hsbit; destruct s; lia.
Qed.
Lemma of_f32_range x : (0 <= bf16_of_f32 x < 65536)%Z.
Proof. apply (convert_range GENERIC false). Qed.
Lemma bf16_result_range A d vec op scale zp code old : (0 <= bf16_result A d vec op scale zp code old < 65536)%Z.
Proof.
  unfold bf16_result. destruct op; [apply convert_range|]. destruct vec; [apply convert_range|apply of_f32_range].
Qed.

Lemma dq_block_bf16 A d : quant_type d -> dq_block A d DT_BF16 = if avx512 A then bf16_block d else 0.
Proof. intros [->|[->| ->]]; destruct A; reflexivity. Qed.

Lemma bf16_at_slice m i : bf16_at m i = le_val (slice (2 * i) 2 m).
Proof. reflexivity. Qed.
Lemma slice_is_byte a l m : Forall is_byte m -> Forall is_byte (slice a l m).
Proof. apply Forall_slice. Qed.
Lemma bf16_at_range m i : Forall is_byte m -> (0 <= bf16_at m i < 65536)%Z.
Proof.
  intros H. unfold bf16_at. pose proof (slice_is_byte (2 * i) 2 m H) as S. set (l := slice (2 * i) 2 m) in *.
  assert (L : length l <= 2) by (unfold l, slice; rewrite firstn_length; lia). clearbody l.
  destruct l as [|a [|b [|]]]; cbn [le_val length] in *; try lia; repeat match goal with H : Forall _ (_ :: _) |- _ => inversion_clear H end; unfold is_byte in *; lia.
Qed.

(** Every element of a bf16 dequantize call, bit for bit. *)
Theorem dequantize_bf16 A nt oaddr din scale zp op inm in_size outm r :
  dq_buffers nt din DT_BF16 inm in_size outm -> (Z.abs zp <= 2 ^ 22)%Z -> Forall is_byte outm ->
  returns inm outm (dequantize_call A nt oaddr din DT_BF16 scale zp op in_size outm) r ->
  let n := numel DT_BF16 (length outm) in
  exists o, r = Ok o /\ length o = length outm /\ Forall is_byte o /\
    (forall i, i < n -> bf16_at o i = bf16_result A din (bf16_vector_path A din n nt i) op scale zp (code_at din inm i) (bf16_at outm i)) /\
    (forall k, 2 * n <= k -> nth k o 0%Z = nth k outm 0%Z).
Proof.
  intros (Hq & Hfp & Hb & Hi & Hle & HS & Hx) Hz Hob HR n. unfold dequantize_call in HR.
  set (E := fun i => le_bytes 2 (bf16_result A din (bf16_vector_path A din n nt i) op scale zp (code_at din inm i) (bf16_at outm i))).
  assert (EL : forall i, i < n -> length (E i) = 2) by (intros; apply le_bytes_length).
  pose proof (numel_le DT_BF16 (length outm) Hfp) as Hn. change (esize DT_BF16) with 2 in *. fold n in Hn.
  assert (HC : forall i, (0 <= code_at din inm i < 256)%Z) by (intros; apply code_at_lt; auto).
  assert (Hpe : per_byte din > 0) by (clear -Hq; destruct Hq as [->|[->| ->]]; cbn; lia).
  assert (Hnt : nt > 0) by apply HS.
  (* the path predicate, from the thread that owns the element *)
  assert (VP : forall t i, t < nt -> part_bound (per_byte din) n nt t <= i < part_bound (per_byte din) n nt (S t) ->
     bf16_vector_path A din n nt i = (avx512 A && (i - part_bound (per_byte din) n nt t <? bf16_block din * ((part_bound (per_byte din) n nt (S t) - part_bound (per_byte din) n nt t) / bf16_block din)))).
  { intros t i Ht Hti. unfold bf16_vector_path. destruct (avx512 A); [|reflexivity]. cbn [andb]. rewrite codes_per_byte_q by auto.
    apply Bool.eq_iff_eq_true. rewrite existsb_exists. split.
    - intros (t' & Hin' & Hp). apply in_seq in Hin'. cbv zeta in Hp. apply andb_prop in Hp. destruct Hp as [Hp1 Hp2].
      apply andb_prop in Hp1. destruct Hp1 as [Hp1 Hp3]. apply Nat.leb_le in Hp1. apply Nat.ltb_lt in Hp3.
      assert (t' = t).
      { destruct (Nat.lt_trichotomy t' t) as [L|[L|L]]; auto; exfalso.
        - pose proof (part_mono' _ n nt Hpe Hnt (S t') t ltac:(lia)). lia.
        - pose proof (part_mono' _ n nt Hpe Hnt (S t) t' ltac:(lia)). lia. }
      subst t'. exact Hp2.
    - intros Hp. exists t. split; [apply in_seq; lia|]. cbv zeta. rewrite Hp.
      rewrite (proj2 (Nat.leb_le _ _)), (proj2 (Nat.ltb_lt _ _)) by lia. reflexivity. }
  assert (HR' := dequantize_core A nt oaddr in_size din (length outm) DT_BF16 scale zp op inm outm E r Hq Hfp Hi HS Hb Hle).
  change (esize DT_BF16) with 2 in HR'. fold n in HR'.
  apply HR' in HR; auto; clear HR'.
  - rewrite HR. eexists. split; [reflexivity|]. rewrite app_length, map_length, seq_length, skipn_length. split; [lia|]. split; [|split].
    + apply Forall_app. split; [|apply Forall_forall; intros z Hz'; apply (proj1 (Forall_forall _ _) Hob); rewrite <- (firstn_skipn (2 * n) outm); apply in_or_app; auto]. apply Forall_map, Forall_forall. intros k Hk. apply in_seq in Hk. unfold byteE, E.
      apply nth_is_byte. apply FloatFacts2.le_bytes_is_byte.
    + intros i Hi'. rewrite bf16_at_slice, slice_byteE; auto; try lia. unfold E. apply le_val_bytes2. apply bf16_result_range.
    + intros k Hk. rewrite app_nth2 by (rewrite map_length, seq_length; lia). rewrite map_length, seq_length.
      rewrite nth_skipn. f_equal. lia.
  - intros _ E2. discriminate.
  - intros t i Ht Hbi Hv. unfold E. rewrite (VP t i Ht Hbi). rewrite dq_block_bf16 in Hv by auto. unfold vec_end in Hv.
    assert (AV : avx512 A = true) by (destruct (avx512 A); auto; cbn in Hv; lia). rewrite AV in *. cbn [andb].
    rewrite (proj2 (Nat.ltb_lt _ _)) by exact Hv.
    unfold dq_el_vec. pose proof (lane_mul_value scale zp (code_at din inm i) ltac:(lia) (HC i)) as LM.
    assert (W : wrap32 zp = zp) by (apply wrap32_id; lia).
    assert (OLD : f32_of_bits ((Z.shiftl (le_val (slice (2 * i) 2 outm)) 16) mod 4294967296) = bf16_to_f32 (bf16_at outm i)).
    { unfold bf16_to_f32. f_equal. fold (bf16_at outm i). rewrite Z.shiftl_mul_pow2 by lia. change (2 ^ 16)%Z with 65536%Z.
      apply Z.mod_small. pose proof (bf16_at_range outm i Hob). lia. }
    unfold bf16_result, bf16_source, bf16_convert, el_bf16, cvt_ps_to_bf16.
    destruct Hq as [->|[->| ->]]; rewrite OLD; rewrite ?LM; unfold lane_fma, vbias, fma_value, fneg; rewrite ?W; destruct op, A; reflexivity.
  - intros t i Ht Hbi Hv. unfold step_put. rewrite dq_block_bf16 in Hv by auto. unfold vec_end in Hv.
    assert (VF : bf16_vector_path A din n nt i = false).
    { rewrite (VP t i Ht Hbi). destruct (avx512 A); auto. cbn [andb]. apply Nat.ltb_ge. exact Hv. }
    unfold E. rewrite VF.
    assert (DQ : dq_scalar din DT_BF16 scale zp (code_at din inm i) = Ok (dequant_value scale zp (code_at din inm i))).
    { assert (W : wrap32 zp = zp) by (apply wrap32_id; lia). pose proof (HC i). unfold dq_scalar, dequant_value.
      destruct Hq as [->|[->| ->]]; unfold dq_i32, dq_sub, i32; rewrite W; rewrite ?in_i32_ok by lia; cbn [bind]; auto.
      rewrite fsub_int by lia. reflexivity. }
    rewrite DQ. cbn [bind put]. unfold put_bf16, put_bf16v, bf16_result, bf16_source, bf16_convert.
    assert (DO : dq_op din DT_BF16 op n i = op) by (destruct din; reflexivity). rewrite DO.
    destruct op; destruct din; reflexivity.
Qed.

(** ** C07: bf16 outputs of dequantize(set), bit for bit, for every scale. *)
Theorem C07_dequantize_set_bf16 A nt oaddr din scale zp inm in_size outm r :
  dq_buffers nt din DT_BF16 inm in_size outm -> (Z.abs zp <= 2 ^ 22)%Z -> Forall is_byte outm ->
  returns inm outm (dequantize_call A nt oaddr din DT_BF16 scale zp RO_SET in_size outm) r ->
  let n := numel DT_BF16 (length outm) in
  exists o, r = Ok o /\ length o = length outm /\
    (forall i, i < n -> let vec := bf16_vector_path A din n nt i in
       bf16_at o i = bf16_convert A vec (bf16_source din vec scale zp (code_at din inm i))) /\
    (* without AVX-512 kernels, and for uint8 with a finite scale and no NaN involved: the bf16 rounding of the f32 product *)
    (forall i, i < n -> avx512 A = false -> bf16_at o i = bf16_of_f32 (fmul (f32_of_Z (code_at din inm i - zp)) scale)) /\
    (forall i, i < n -> din = DT_UINT8 -> A <> AVX512BF16 -> finite scale -> bf16_at o i = bf16_of_f32 (fmul (f32_of_Z (code_at din inm i - zp)) scale)) /\
    (forall k, 2 * n <= k -> nth k o 0%Z = nth k outm 0%Z).
Proof.
  intros HB Hz Hob HR n. destruct (dequantize_bf16 _ _ _ _ _ _ _ _ _ _ _ HB Hz Hob HR) as (o & -> & L & _ & HE & HF). fold n in HE, HF.
  exists o. split; auto. split; auto. split; [|split; [|split]]; auto.
  - intros i Hi Ha. rewrite HE by auto. unfold bf16_vector_path. rewrite Ha. cbn [andb].
    pose proof HB as (Hq & _). unfold bf16_result, bf16_source, bf16_convert, dequant_value. destruct Hq as [->|[->| ->]]; reflexivity.
  - intros i Hi -> HA Hs. rewrite HE by auto. unfold bf16_result, bf16_source, bf16_convert. destruct (bf16_vector_path _ _ _ _ _); [|reflexivity].
    assert (N : ~ nan (dequant_value scale zp (code_at DT_UINT8 inm i))).
    { apply dequant_value_not_nan; auto; [lia|apply code_at_lt; right; right; reflexivity]. }
    change (fmul (f32_of_Z (code_at DT_UINT8 inm i - zp)) scale) with (dequant_value scale zp (code_at DT_UINT8 inm i)).
    rewrite <- (C18_software_conversion_agrees _ N). destruct A; try reflexivity. congruence.
Qed.
(** ** C08: bf16 outputs of dequantize(add): every element accumulates, in every tail.  On the vector path one f32 sum is rounded to bf16;
    on the scalar path the dequantized value is rounded to bf16 before the (correctly rounded, C37) bf16 addition. *)
Theorem C08_dequantize_add_bf16 A nt oaddr din scale zp inm in_size outm r :
  dq_buffers nt din DT_BF16 inm in_size outm -> (Z.abs zp <= 2 ^ 22)%Z -> Forall is_byte outm ->
  returns inm outm (dequantize_call A nt oaddr din DT_BF16 scale zp RO_ADD in_size outm) r ->
  let n := numel DT_BF16 (length outm) in
  exists o, r = Ok o /\ length o = length outm /\
    (forall i, i < n -> let vec := bf16_vector_path A din n nt i in let v := bf16_source din vec scale zp (code_at din inm i) in
       bf16_at o i = if vec then bf16_convert A true (fadd v (bf16_to_f32 (bf16_at outm i))) else bf16_add (bf16_at outm i) (bf16_of_f32 v)) /\
    (forall k, 2 * n <= k -> nth k o 0%Z = nth k outm 0%Z).
Proof.
  intros HB Hz Hob HR n. destruct (dequantize_bf16 _ _ _ _ _ _ _ _ _ _ _ HB Hz Hob HR) as (o & -> & L & _ & HE & HF). fold n in HE, HF.
  exists o. split; auto.
Qed.

(** ** Accuracy *)
Local Open Scope R_scope.
(** a scale well inside the normal range *)
Definition bf16_scale (scale : f32) : Prop := finite scale /\ bpow radix2 (-120) <= Rabs (val scale) <= bpow radix2 100.
Lemma bf16_scale_normal s : bf16_scale s -> normal_scale s.
Proof. intros (F & L & U). split; auto. split; auto. apply Rle_trans with (2 := L). apply bpow_le. lia. Qed.
Lemma bf16_scale_pos s : bf16_scale s -> 0 < Rabs (val s) /\ val s <> 0.
Proof.
  intros (F & L & U). assert (0 < Rabs (val s)) by (eapply Rlt_le_trans; [apply bpow_gt_0|exact L]). split; auto. intros E. rewrite E, Rabs_R0 in H. lra.
Qed.
Lemma tiny_over s : bf16_scale s -> tiny / Rabs (val s) <= bpow radix2 (-30).
Proof.
  intros Hs. destruct (bf16_scale_pos s Hs) as [P _]. destruct Hs as (F & L & U). apply Rmult_le_reg_r with (Rabs (val s)); auto.
  unfold Rdiv. rewrite Rmult_assoc, Rinv_l, Rmult_1_r by lra. unfold tiny. replace (-150)%Z with (-30 + -120)%Z by reflexivity. rewrite bpow_plus.
  apply Rmult_le_compat_l; auto. apply bpow_ge_0.
Qed.

Lemma fma_near scale zp q : bf16_scale scale -> (0 <= zp <= 255)%Z -> (0 <= q <= 255)%Z ->
  let v := fma_value scale zp q in
  finite v /\ Rabs (val v / val scale - IZR (q - zp)) <= bpow radix2 (-15).
Proof.
  intros Hs Hz Hq v. pose proof (bf16_scale_normal _ Hs) as Hn. destruct (bf16_scale_pos _ Hs) as [P NZ].
  destruct (f32_of_Z_exact q) as [Fq Vq]; [lia|]. destruct (f32_of_Z_exact zp) as [Fz Vz]; [lia|].
  assert (Fo : finite (b32_opp (f32_of_Z zp)) /\ val (b32_opp (f32_of_Z zp)) = IZR (- zp)).
  { unfold finite, val, b32_opp. rewrite is_finite_Bopp, B2R_Bopp. split; [exact Fz|]. unfold val in Vz. rewrite Vz, opp_IZR. reflexivity. }
  destruct Fo as [Fo Vo].
  pose proof (product_bound scale (- zp) Hn (abs_IZR_le (- zp) (2 ^ 20) ltac:(lia))) as B.
  destruct (fmul_ok (b32_opp (f32_of_Z zp)) scale) as [Fb Vb]; auto; [apply Hs|rewrite Vo; exact B|].
  rewrite Vo in Vb. destruct (product_rel scale (- zp) Hn) as (d1 & Hd1 & E1). rewrite E1 in Vb.
  set (b := fmul (b32_opp (f32_of_Z zp)) scale) in *.
  assert (X : val (f32_of_Z q) * val scale + val b = val scale * (IZR (q - zp) - IZR zp * d1)).
  { rewrite Vq, Vb, opp_IZR, minus_IZR. ring. }
  set (t := IZR (q - zp) - IZR zp * d1) in *.
  assert (Bz : 0 <= IZR zp <= 255) by (split; apply IZR_le; lia).
  assert (Bq : Rabs (IZR (q - zp)) <= 255) by (apply (abs_IZR_le _ 255); lia).
  assert (Bd : Rabs (IZR zp * d1) <= 255 * u32r).
  { rewrite Rabs_mult, (Rabs_pos_eq (IZR zp)) by lra. apply Rmult_le_compat; try lra; try apply Rabs_pos. }
  assert (Bt : Rabs t <= 256).
  { unfold t. unfold u32r in Bd. apply Rabs_le. apply Rabs_le_inv in Bq. apply Rabs_le_inv in Bd. lra. }
  destruct (RN32_err (val scale * t)) as (d2 & e2 & Hd2 & He2 & E2).
  assert (OV : Rabs (RN32 (val (f32_of_Z q) * val scale + val b)) < max32).
  { rewrite X. apply Rle_lt_trans with (bpow radix2 120); [|unfold max32; apply bpow_lt; lia].
    apply abs_round_le_generic; auto with typeclass_instances.
    - apply generic_format_bpow. unfold FLT_exp. lia.
    - rewrite Rabs_mult. apply Rle_trans with (bpow radix2 100 * bpow radix2 8).
      + apply Rmult_le_compat; try apply Rabs_pos; [apply Hs|]. change (bpow radix2 8) with 256. exact Bt.
      + rewrite <- bpow_plus. apply bpow_le. lia. }
  destruct (ffma_ok (f32_of_Z q) scale b Fq (proj1 Hs) Fb OV) as [Fv Vv]. split; [exact Fv|].
  unfold v, fma_value. fold b. rewrite Vv, X, E2.
  replace ((val scale * t * (1 + d2) + e2) / val scale - IZR (q - zp)) with (t * d2 - IZR zp * d1 + e2 / val scale) by (unfold t; field; auto).
  assert (T2 : Rabs (t * d2) <= 256 * u32r) by (rewrite Rabs_mult; apply Rmult_le_compat; try apply Rabs_pos; auto).
  assert (T3 : Rabs (e2 / val scale) <= bpow radix2 (-30)).
  { unfold Rdiv. rewrite Rabs_mult, Rabs_inv. eapply Rle_trans; [|apply (tiny_over _ Hs)]. apply Rmult_le_compat_r; auto.
    left. apply Rinv_0_lt_compat. auto. }
  change (bpow radix2 (-30)) with (/ 1073741824) in T3. change (bpow radix2 (-15)) with (/ 32768). unfold u32r in *.
  apply Rabs_le. apply Rabs_le_inv in T2. apply Rabs_le_inv in T3. apply Rabs_le_inv in Bd. lra.
Qed.
Lemma source_near d vec scale zp q : bf16_scale scale -> (0 <= zp <= 255)%Z -> (0 <= q <= 255)%Z ->
  let v := bf16_source d vec scale zp q in
  finite v /\ Rabs (val v / val scale - IZR (q - zp)) <= bpow radix2 (-15) /\ (d = DT_UINT8 \/ vec = false -> q = zp -> val v = 0).
Proof.
  intros Hs Hz Hq v. pose proof (bf16_scale_normal _ Hs) as Hn.
  assert (D : finite (dequant_value scale zp q) /\ Rabs (val (dequant_value scale zp q) / val scale - IZR (q - zp)) <= bpow radix2 (-15)
     /\ (q = zp -> val (dequant_value scale zp q) = 0)).
  { destruct (dequant_value_ok scale zp q Hn ltac:(lia)) as [F V]. split; auto. rewrite V. split.
    - eapply Rle_trans; [apply product_near; auto|].
      assert (Rabs (IZR (q - zp)) <= 255) by (apply (abs_IZR_le _ 255); lia). unfold u32r. change (bpow radix2 (-15)) with (/ 32768). lra.
    - intros ->. rewrite Z.sub_diag, Rmult_0_l. apply RN32_0. }
  unfold v, bf16_source. destruct d; try (destruct vec; [|destruct D as (? & ? & ?); repeat split; auto]); try (destruct D as (? & ? & ?); repeat split; auto; fail);
    destruct (fma_near scale zp q Hs Hz Hq) as [? ?]; (split; [auto|split; [auto|]]); intros [|]; discriminate.
Qed.

Lemma RN16_err x : exists d e, Rabs d <= / 256 /\ Rabs e <= bpow radix2 (-134) /\ RN16 x = x * (1 + d) + e.
Proof.
  destruct (error_N_FLT radix2 (-133) 8 ltac:(lia) (fun z => negb (Z.even z)) x) as (d & e & Hd & He & _ & E).
  exists d, e. change (/ 2 * bpow radix2 (- (8) + 1)) with (/ 2 * / 128) in Hd. split; [lra|]. split.
  - change (/ 2) with (bpow radix2 (-1)) in He. rewrite <- bpow_plus in He. exact He.
  - exact E.
Qed.
(** whichever conversion is used, a float of moderate size becomes its bf16 rounding (or zero, if it is subnormal) *)
Lemma convert_ok A vec x : finite x -> Rabs (val x) <= bpow radix2 120 ->
  let b := bf16_convert A vec x in
  finite (bf16_to_f32 b) /\ (val (bf16_to_f32 b) = RN16 (val x) \/ (Rabs (val x) < bpow radix2 (-126) /\ val (bf16_to_f32 b) = 0)).
Proof.
  intros F B b.
  assert (R : bf16_convert A false x = bf16_of_f32 x -> finite (bf16_to_f32 (bf16_of_f32 x)) /\ val (bf16_to_f32 (bf16_of_f32 x)) = RN16 (val x)).
  { intros _. pose proof (C17_round_to_nearest_even x F) as H. cbv zeta in H. destruct H as (_ & _ & H).
    rewrite Rlt_bool_true in H; auto. apply Rle_lt_trans with (bpow radix2 120); [|apply bpow_lt; lia].
    apply abs_round_le_generic; auto with typeclass_instances. apply generic_format_bpow. unfold FLT_exp. lia. }
  specialize (R eq_refl). unfold b, bf16_convert. destruct vec; [|split; [|left]; apply R].
  assert (SW : cvt_ps_to_bf16_sw_bits (bits_of_f32 x) = bf16_of_f32 x) by (apply C18_software_conversion_agrees, finite_not_nan; auto).
  destruct A; try (rewrite SW; split; [|left]; apply R).
  pose proof (C18_hardware_conversion x) as H. cbv zeta in H. destruct H as [H1 H2].
  destruct (Rlt_or_le (Rabs (val x)) (bpow radix2 (-126))) as [L|L].
  - rewrite (H2 F L). split; [reflexivity|]. right. split; auto.
  - rewrite H1; [split; [|left]; apply R|]. intros (_ & _ & K). lra.
Qed.

(** The stored bf16 is within |k|/256 + 2^-13 steps of k = code - zp, on every path. *)
Lemma bf16_near A d vec scale zp q : bf16_scale scale -> (0 <= zp <= 255)%Z -> (0 <= q <= 255)%Z ->
  let w := bf16_to_f32 (bf16_convert A vec (bf16_source d vec scale zp q)) in
  finite w /\ Rabs (val w / val scale - IZR (q - zp)) <= / 256 * Rabs (IZR (q - zp)) + bpow radix2 (-13).
Proof.
  intros Hs Hz Hq w. destruct (source_near d vec scale zp q Hs Hz Hq) as (F & N & _). set (v := bf16_source d vec scale zp q) in *.
  destruct (bf16_scale_pos _ Hs) as [P NZ]. destruct Hs as (Fs & L & U).
  assert (Bq : Rabs (IZR (q - zp)) <= 255) by (apply (abs_IZR_le _ 255); lia).
  set (k := IZR (q - zp)) in *. change (bpow radix2 (-15)) with (/ 32768) in N. 
  assert (Bt : Rabs (val v / val scale) <= Rabs k + / 32768).
  { replace (val v / val scale) with (k + (val v / val scale - k)) by ring. eapply Rle_trans; [apply Rabs_triang|]. lra. }
  assert (V : val v = val v / val scale * val scale) by (field; auto).
  destruct (convert_ok A vec v F) as [Fw [Vw|[Sv Vw]]].
  { rewrite V, Rabs_mult. apply Rle_trans with (256 * bpow radix2 100); [apply Rmult_le_compat; try apply Rabs_pos; auto; lra|].
    change 256 with (bpow radix2 8). rewrite <- bpow_plus. apply bpow_le. lia. }
  - split; auto. fold w in Vw. destruct (RN16_err (val v)) as (dl & e & Hd & He & E). rewrite Vw, E.
    replace ((val v * (1 + dl) + e) / val scale - k) with ((val v / val scale - k) + val v / val scale * dl + e / val scale) by (field; auto).
    assert (T1 : Rabs (val v / val scale * dl) <= (Rabs k + / 32768) * / 256) by (rewrite Rabs_mult; apply Rmult_le_compat; try apply Rabs_pos; auto).
    assert (T2 : Rabs (e / val scale) <= bpow radix2 (-14)).
    { unfold Rdiv. rewrite Rabs_mult, Rabs_inv. apply Rmult_le_reg_r with (Rabs (val scale)); auto. rewrite Rmult_assoc, Rinv_l, Rmult_1_r by lra.
      eapply Rle_trans; [exact He|]. replace (-134)%Z with (-14 + -120)%Z by reflexivity. rewrite bpow_plus. apply Rmult_le_compat_l; auto. apply bpow_ge_0. }
    change (bpow radix2 (-14)) with (/ 16384) in T2. change (bpow radix2 (-13)) with (/ 8192).
    eapply Rle_trans; [apply Rabs_triang|]. eapply Rle_trans; [apply Rplus_le_compat_r, Rabs_triang|]. lra.
  - split; auto. fold w in Vw. rewrite Vw.
    assert (K0 : k = 0).
    { unfold k. destruct (Z.eq_dec (q - zp) 0) as [->|NE]; auto. exfalso.
      assert (K1 : 1 <= Rabs k) by (unfold k; rewrite <- abs_IZR; apply IZR_le; lia).
      assert (T : Rabs (val v / val scale) >= / 2).
      { apply Rabs_le_inv in N. apply Rle_ge. unfold Rabs in *. destruct (Rcase_abs k), (Rcase_abs (val v / val scale)); lra. }
      rewrite V, Rabs_mult in Sv.
      assert (C : / 2 * bpow radix2 (-120) <= Rabs (val v / val scale) * Rabs (val scale)).
      { apply Rmult_le_compat; try lra. apply bpow_ge_0. }
      assert (C' : bpow radix2 (-126) < / 2 * bpow radix2 (-120)).
      { change (/ 2) with (bpow radix2 (-1)). rewrite <- bpow_plus. apply bpow_lt. lia. }
      lra. }
    rewrite K0, Rabs_R0. unfold Rdiv. rewrite Rmult_0_l, Rminus_0_r, Rabs_R0. pose proof (bpow_ge_0 radix2 (-13)). lra.
Qed.

(** On every kernel set and path the stored bf16 is within a relative 2^-8 (half a bf16 ulp) plus 2^-13 of a step of (code - zp) * scale. *)
Theorem C07_bf16_accuracy A nt oaddr din scale zp inm in_size outm r :
  dq_buffers nt din DT_BF16 inm in_size outm -> (0 <= zp <= code_max din)%Z -> bf16_scale scale -> Forall is_byte outm ->
  returns inm outm (dequantize_call A nt oaddr din DT_BF16 scale zp RO_SET in_size outm) r ->
  exists o, r = Ok o /\ forall i, (i < numel DT_BF16 (length outm))%nat ->
    finite (elem_at DT_BF16 o i) /\
    Rabs (val (elem_at DT_BF16 o i) - IZR (code_at din inm i - zp) * val scale) <=
      / 256 * Rabs (IZR (code_at din inm i - zp) * val scale) + bpow radix2 (-13) * Rabs (val scale).
Proof.
  intros HB Hz Hs Hob HR. pose proof HB as (Hq & _). pose proof (code_max_range din Hq) as Hm.
  assert (Hz22 : (Z.abs zp <= 2 ^ 22)%Z) by lia.
  destruct (dequantize_bf16 _ _ _ _ _ _ _ _ _ _ _ HB Hz22 Hob HR) as (o & -> & L & _ & HE & _).
  exists o. split; auto. intros i Hi. cbn [elem_at]. change (f32_of_bits (bf16_at o i * 65536)) with (bf16_to_f32 (bf16_at o i)). rewrite HE by auto.
  cbn [bf16_result]. pose proof (code_at_lt din inm i Hq).
  destruct (bf16_near A din (bf16_vector_path A din (numel DT_BF16 (length outm)) nt i) scale zp (code_at din inm i) Hs ltac:(lia) ltac:(lia)) as [F N].
  unfold bf16_result. split; [exact F|]. destruct (bf16_scale_pos _ Hs) as [P NZ]. 
  set (w := val _) in *. set (k := IZR _) in *. replace (w - k * val scale) with ((w / val scale - k) * val scale) by (field; auto).
  rewrite !Rabs_mult. replace (/ 256 * (Rabs k * Rabs (val scale)) + bpow radix2 (-13) * Rabs (val scale)) with ((/ 256 * Rabs k + bpow radix2 (-13)) * Rabs (val scale)) by ring.
  apply Rmult_le_compat_r; [lra|auto].
Qed.

(** ** C15 for bf16: quantizing a dequantized bf16 buffer gives the codes back whenever |code - zp| <= 127 (always true for uint4 and
    uint2); beyond that the eight significant bits of a bf16 do not suffice (C15_bf16_uint8_refuted below). *)
Theorem C15_requantize_bf16 A nt oaddr A' nt' oaddr' d scale zp thr inm in_size outm o pk r :
  let n := numel DT_BF16 (length outm) in
  dq_buffers nt d DT_BF16 inm in_size outm -> bf16_scale scale -> (0 <= zp <= code_max d)%Z -> Forall is_byte outm ->
  returns inm outm (dequantize_call A nt oaddr d DT_BF16 scale zp RO_SET in_size outm) (Ok o) ->
  length pk = bytes_for d n -> sizes_ok (length outm) n nt' ->
  returns o pk (quantize_call A' nt' oaddr' DT_BF16 d scale zp RM_NEAREST thr o pk) r ->
  (forall i, (i < n)%nat -> (Z.abs (code_at d inm i - zp) <= 127)%Z) ->
  exists p, r = Ok p /\ length p = length pk /\ forall i, (i < n)%nat -> code_at d p i = code_at d inm i.
Proof.
  intros n HB Hs Hz Hby HD Hl HS HQ H127. pose proof HB as (Hq & _). pose proof (code_max_range d Hq) as Hm.
  assert (Hz22 : (Z.abs zp <= 2 ^ 22)%Z) by lia.
  destruct (dequantize_bf16 _ _ _ _ _ _ _ _ _ _ _ HB Hz22 Hby HD) as (o' & E & L & HBo & HE & _). injection E as <-. fold n in HE.
  pose proof (bf16_scale_normal _ Hs) as Hn.
  assert (G : forall i, (i < n)%nat -> nearest_ok A' scale (elem_at DT_BF16 o i) /\ quant_code d (val scale) zp (val (elem_at DT_BF16 o i)) = code_at d inm i).
  { intros i Hi. cbn [elem_at]. change (f32_of_bits (bf16_at o i * 65536)) with (bf16_to_f32 (bf16_at o i)). rewrite HE by auto. unfold bf16_result.
    pose proof (code_at_le d inm i Hq) as Hc.
    destruct (bf16_near A d (bf16_vector_path A d n nt i) scale zp (code_at d inm i) Hs ltac:(lia) ltac:(lia)) as [F N].
    set (w := bf16_to_f32 _) in *. set (q := code_at d inm i) in *.
    assert (Bq : Rabs (IZR (q - zp)) <= 127) by (apply (abs_IZR_le _ 127); apply H127; auto).
    set (eta := / 256 * Rabs (IZR (q - zp)) + bpow radix2 (-13)) in *.
    change (bpow radix2 (-13)) with (/ 8192) in eta. pose proof (Rabs_pos (IZR (q - zp))) as Pq.
    assert (He : 0 <= eta <= 1) by (unfold eta; lra).
    assert (He2 : eta + 4 * u32r * (Rabs (IZR (q - zp)) + 1) < / 2) by (unfold eta, u32r; lra).
    destruct (requant_code d scale zp q w eta Hq Hn ltac:(lia) Hc F He He2 N) as (Q1 & Q2 & _).
    split; auto. split; auto. intros _.
    pose proof (scaled_near scale (val w) (q - zp) eta Hn ltac:(lra) He N) as S. pose proof pred_half_bounds as PH.
    set (y := scaled (val scale) (val w)) in *. destruct (Z.eq_dec (q - zp) 0) as [E0|E0].
    - assert (y' : Rabs y <= / 4).
      { unfold eta in S. rewrite E0, Rminus_0_r, Rabs_R0 in S. unfold u32r in S. lra. }
      lra.
    - assert (K1 : 1 <= Rabs (IZR (q - zp))) by (rewrite <- abs_IZR; apply IZR_le; lia).
      assert (y' : / 2 <= Rabs y).
      { assert (S' : Rabs (y - IZR (q - zp)) < / 2) by lra. pose proof (Rabs_triang_inv (IZR (q - zp)) (IZR (q - zp) - y)) as T.
        replace (IZR (q - zp) - (IZR (q - zp) - y)) with y in T by ring. rewrite (Rabs_minus_sym (IZR (q - zp)) y) in T. lra. }
      lra. }
  assert (NE : numel DT_BF16 (length o) = n) by (unfold n; rewrite L; reflexivity).
  destruct (C01_quantize_nearest A' nt' oaddr' DT_BF16 d scale zp thr o pk r) as (p & -> & Lp & HC); auto.
  - repeat split; auto; try (right; reflexivity); rewrite ?NE, ?L; auto; try apply HS.
  - apply normal_good; auto.
  - intros i Hi. rewrite NE in Hi. apply G. auto.
  - exists p. split; auto. split; auto. intros i Hi. rewrite NE in HC. rewrite HC by auto. apply G. auto.
Qed.
