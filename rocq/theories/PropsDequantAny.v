(** PropsDequantAny.v -- C07, complete: the result of every dequantize call with valid buffers, for every scale (zero, negative, infinite, NaN), every
    int64 zero point, both reduce operations and both output types. *)
From Coq Require Import ZArith List Lia Bool Arith ZifyBool ZifyNat Reals Lra.
From Flocq Require Import Core Binary Bits.
From Verif Require Import Base Floats Simd Dtypes Spec ApiSpec QuantKernels DequantKernels ExecFacts FloatFacts QuantFacts QuantKernelFacts
  QuantGenericFacts DequantFacts DequantGenericFacts QuantLanes Context ContextFacts Footprint QuantizeFacts DequantizeFacts Api PropsQuantize
  FloatFacts2 PropsDequantize PropsRoundTrip Bf16Spec Bf16Facts PropsBf16 PropsDequantBf16 NoAbort ScalarUB DequantUB PathSpec PropsPaths.
Import ListNotations.
Ltac Zify.zify_post_hook ::= Z.div_mod_to_equations.

(** ** Vocabulary *)
(** Elements per vector iteration; 0: no vector code. *)
Definition dequant_block (A : arch) (din dout : dtype) : nat :=
  match dout, din, A with
  | DT_BF16, _, _ => if avx512 A then bf16_block din else 0
  | _, DT_UINT8, GENERIC => 0 | _, DT_UINT8, NEON => 16 | _, DT_UINT8, _ => 64
  | _, DT_UINT4, SSE42 => 32 | _, DT_UINT4, AVX2 => 64 | _, DT_UINT4, (AVX512F | AVX512BF16) => 128
  | _, _, _ => 0
  end.
(** Is element [i] of [n] handled by a vector iteration?  The thread that owns it works on [lo, hi) and handles whole blocks. *)
Definition dequant_vector_path (A : arch) (din dout : dtype) (n nt i : nat) : bool :=
  existsb (fun t =>
    let lo := part_bound (codes_per_byte din) n nt t in
    let hi := part_bound (codes_per_byte din) n nt (S t) in
    (lo <=? i) && (i <? hi) && (i - lo <? dequant_block A din dout * ((hi - lo) / dequant_block A din dout))) (seq 0 nt).
(** The float computed for a code.  All kernels but uint2 -> f32 keep the low 32 bits of the zero point only.  [None]: signed overflow in the scalar
    subtraction, which is undefined behaviour; vector subtractions wrap. *)
Definition dequant_float (din dout : dtype) (vec : bool) (scale : f32) (zp code : Z) : option f32 :=
  let low := wrap32 zp in
  let int32_product :=
    if vec then Some (fmul (f32_of_Z (wrap32 (code - low))) scale)
    else if (code - low <? 2 ^ 31)%Z then Some (fmul (f32_of_Z (code - low)) scale) else None in
  match din, dout with
  | DT_UINT2, DT_F32 => if (code - zp <? 2 ^ 63)%Z then Some (fmul (f32_of_Z (code - zp)) scale) else None
  | DT_UINT2, _ => Some (if vec then fma_value scale low code else fmul (fsub (f32_of_Z code) (f32_of_Z low)) scale)
  | DT_UINT4, DT_BF16 => if vec then Some (fma_value scale low code) else int32_product
  | _, _ => int32_product
  end.
(** Equal floats, any two NaNs counting as equal. *)
Definition same_float (x y : f32) : Prop := x = y \/ (nan x /\ nan y).
(** Element [i] of the output [o] after storing the float [v] over [outm]: f32 ... *)
Definition stored_f32 (din : dtype) (op : reduce_op) (outm o : mem) (v : f32) (i : nat) : Prop :=
  match reaches din op (numel DT_F32 (length outm)) i with
  | RO_SET => f32_at o i = v
  | RO_ADD => same_float (f32_at o i) (fadd (f32_at outm i) v)
  end.
(** ... and bf16: one rounding of the f32 sum on the vector path, a bf16 addition of the rounded value on the scalar path *)
Definition stored_bf16 (A : arch) (vec : bool) (op : reduce_op) (outm o : mem) (v : f32) (i : nat) : Prop :=
  bf16_at o i = match op with
                | RO_SET => bf16_convert A vec v
                | RO_ADD => if vec then bf16_convert A true (fadd v (bf16_to_f32 (bf16_at outm i))) else bf16_add (bf16_at outm i) (bf16_of_f32 v)
                end.

Lemma dequant_block_dq A din dout : quant_type din -> float_type dout -> dequant_block A din dout = dq_block A din dout.
Proof. intros [->|[->| ->]] [->| ->]; destruct A; reflexivity. Qed.

Lemma wrap32_bounds z : (- 2147483648 <= wrap32 z < 2147483648)%Z.
Proof. unfold wrap32. pose proof (Z.mod_pos_bound (z + 2147483648) 4294967296). lia. Qed.

Lemma fadd_nan_l x y : nan x -> nan (fadd x y).
Proof. destruct x; try discriminate. destruct y; reflexivity. Qed.
Lemma fadd_nan_r x y : nan y -> nan (fadd x y).
Proof. destruct y; try discriminate. destruct x; reflexivity. Qed.
Lemma fadd_same x y : same_float (fadd x y) (fadd y x).
Proof.
  destruct (is_nan 24 128 x) eqn:E.
  - right. split; [apply fadd_nan_l|apply fadd_nan_r]; exact E.
  - left. apply fadd_comm. intros [N _]. unfold nan in N. congruence.
Qed.

(** the scalar code computes [dequant_float] *)
Lemma dq_scalar_any din dout scale zp code : quant_type din -> float_type dout -> (- 2 ^ 63 <= zp < 2 ^ 63)%Z -> (0 <= code < 256)%Z ->
  dq_scalar din dout scale zp code = match dequant_float din dout false scale zp code with Some v => Ok v | None => UB end.
Proof.
  intros Hq Hfp Hz Hc. pose proof (wrap32_bounds zp) as W. unfold dq_scalar, dequant_float.
  destruct Hq as [->|[->| ->]], Hfp as [->| ->]; unfold dq_i32, dq_i64, dq_sub, i32, i64, in_i32, in_i64; cbv zeta; try reflexivity;
    repeat match goal with |- context [if ?b then _ else _] => let E := fresh "E" in destruct b eqn:E; cbn [bind] end; try reflexivity; exfalso; lia.
Qed.

(** C07, complete: every kernel set, dtype pair, data, scale, int64 zero point, reduce operation, thread count and schedule. *)
Theorem C07_complete A nt oaddr din dout scale zp op inm in_size outm r :
  dq_buffers nt din dout inm in_size outm -> (- 2 ^ 63 <= zp < 2 ^ 63)%Z -> Forall is_byte outm ->
  returns inm outm (dequantize_call A nt oaddr din dout scale zp op in_size outm) r ->
  let n := numel dout (length outm) in
  let vec := dequant_vector_path A din dout n nt in
  let v i := dequant_float din dout (vec i) scale zp (code_at din inm i) in
  ((exists i, i < n /\ v i = None) -> r = UB) /\
  ((forall i, i < n -> v i <> None) ->
   exists o, r = Ok o /\ length o = length outm /\
     (forall i x, i < n -> v i = Some x ->
        match dout with DT_BF16 => stored_bf16 A (vec i) op outm o x i | _ => stored_f32 din op outm o x i end) /\
     (forall k, esize dout * n <= k -> nth k o 0%Z = nth k outm 0%Z)).
Proof.
  intros (Hq & Hfp & Hb & Hi & Hle & HS & Hx) Hz Hob HR n vec v. unfold dequantize_call in HR.
  assert (HC : forall i, (0 <= code_at din inm i < 256)%Z) by (intros; apply code_at_lt; auto).
  assert (Hpe : per_byte din > 0) by (clear -Hq; destruct Hq as [->|[->| ->]]; cbn; lia).
  assert (Hnt : nt > 0) by apply HS.
  assert (VP : forall t i, t < nt -> part_bound (per_byte din) n nt t <= i < part_bound (per_byte din) n nt (S t) ->
     vec i = (i - part_bound (per_byte din) n nt t <? vec_end (dq_block A din dout) (part_bound (per_byte din) n nt (S t) - part_bound (per_byte din) n nt t))).
  { intros t i Ht Hti. unfold vec, dequant_vector_path, vec_end. rewrite codes_per_byte_q, dequant_block_dq by auto.
    apply Bool.eq_iff_eq_true. rewrite existsb_exists. split.
    - intros (t' & Hin' & Hp). apply in_seq in Hin'. cbv zeta in Hp. apply andb_prop in Hp. destruct Hp as [Hp1 Hp2].
      apply andb_prop in Hp1. destruct Hp1 as [Hp1 Hp3]. apply Nat.leb_le in Hp1. apply Nat.ltb_lt in Hp3.
      assert (t' = t).
      { destruct (Nat.lt_trichotomy t' t) as [L|[L|L]]; auto; exfalso.
        - pose proof (part_mono' _ n nt Hpe Hnt (S t') t ltac:(lia)). lia.
        - pose proof (part_mono' _ n nt Hpe Hnt (S t) t' ltac:(lia)). lia. }
      subst t'. exact Hp2.
    - intros Hp. exists t. split; [apply in_seq; lia|]. cbv zeta. rewrite Hp.
      rewrite (proj2 (Nat.leb_le _ _)), (proj2 (Nat.ltb_lt _ _)) by lia. reflexivity. }
  assert (VN : forall i, v i = None -> vec i = false).
  { intros i H. unfold v, dequant_float in H. destruct (vec i) eqn:EV; auto. exfalso.
    destruct Hq as [->|[->| ->]], Hfp as [->| ->]; cbn in H; try discriminate.
    unfold vec in EV. revert EV. unfold dequant_vector_path. rewrite existsb_exists. intros (t & _ & E). cbv zeta in E.
    assert (B0 : dequant_block A DT_UINT2 DT_F32 = 0) by (destruct A; reflexivity). rewrite B0 in E. lia. }
  split.
  - (* a signed overflow *)
    intros (i & Hin & HN). assert (HF := VN i HN).
    destruct (owner_exists (per_byte din) n nt i Hpe Hnt Hin) as (t & Ht & Hti).
    assert (HV : vec_end (dq_block A din dout) (part_bound (per_byte din) n nt (S t) - part_bound (per_byte din) n nt t) <= i - part_bound (per_byte din) n nt t).
    { rewrite (VP t i Ht Hti) in HF. apply Nat.ltb_ge in HF. exact HF. }
    assert (HU : dq_scalar din dout scale zp (code_at din inm i) = UB).
    { rewrite dq_scalar_any by auto. unfold v in HN. rewrite HF in HN. rewrite HN. reflexivity. }
    exact (dequantize_ub A nt oaddr in_size din (length outm) dout scale zp op inm outm r t i Hq Hfp Hi HS Hb Hle Ht Hti HV HU HR).
  - (* no overflow *)
    intros HD.
    set (X := fun i => match v i with Some x => x | None => f_zero end).
    set (E := fun i => match dout with
       | DT_BF16 => le_bytes 2 (match op with
            | RO_SET => bf16_convert A (vec i) (X i)
            | RO_ADD => if vec i then bf16_convert A true (fadd (X i) (bf16_to_f32 (bf16_at outm i))) else bf16_add (bf16_at outm i) (bf16_of_f32 (X i)) end)
       | _ => le_bytes 4 (bits_of_f32 (match reaches din op n i with
            | RO_SET => X i
            | RO_ADD => if vec i then fadd (X i) (f32_at outm i) else fadd (f32_at outm i) (X i) end)) end).
    assert (EX : forall i x, v i = Some x -> X i = x) by (intros i x H; unfold X; rewrite H; reflexivity).
    assert (EL : forall i, i < n -> length (E i) = esize dout) by (intros; unfold E; destruct Hfp as [->| ->]; apply le_bytes_length).
    pose proof (numel_le dout (length outm) Hfp) as Hn. fold n in Hn.
    assert (HR' := dequantize_core A nt oaddr in_size din (length outm) dout scale zp op inm outm E r Hq Hfp Hi HS Hb Hle). fold n in HR'.
    apply HR' in HR; auto; clear HR'.
    + rewrite HR. eexists. split; [reflexivity|]. rewrite app_length, map_length, seq_length, skipn_length. split; [lia|]. split.
      * intros i x Hin Hv. specialize (EX i x Hv). destruct Hfp as [Eo|Eo]; subst dout; cbn [esize] in *; change (esize DT_F32) with 4 in *; change (esize DT_BF16) with 2 in *.
        -- unfold stored_f32. rewrite f32_at_ld, slice_byteE; auto; try lia. unfold E. rewrite ld_f32_bytes, EX. change (numel DT_F32 (length outm)) with n.
           destruct (reaches din op n i); auto. destruct (vec i); [apply fadd_same|left; reflexivity].
        -- unfold stored_bf16. rewrite bf16_at_slice, slice_byteE; auto; try lia. unfold E. rewrite EX. apply le_val_bytes2.
           destruct op; [apply convert_range|]. destruct (vec i); [apply convert_range|apply of_f32_range].
      * intros k Hk. rewrite app_nth2 by (rewrite map_length, seq_length; lia). rewrite map_length, seq_length. rewrite nth_skipn. f_equal. lia.
    + intros -> E2 Hn0. specialize (Hx eq_refl E2). fold n in Hx, Hi. subst in_size. unfold bytes_for in *. cbn [bit_size] in *.
      destruct (Nat.eq_dec (n mod 4) 0) as [E0|E0]; [specialize (Hx E0 Hn0)|]; lia.
    + intros t i Ht Hbi Hv. assert (EV : vec i = true) by (rewrite (VP t i Ht Hbi); apply Nat.ltb_lt; exact Hv).
      unfold E. rewrite EV. unfold X, v, dequant_float. rewrite EV.
      assert (OLD : f32_of_bits ((Z.shiftl (le_val (slice (2 * i) 2 outm)) 16) mod 4294967296) = bf16_to_f32 (bf16_at outm i)).
      { unfold bf16_to_f32. f_equal. fold (bf16_at outm i). rewrite Z.shiftl_mul_pow2 by lia. change (2 ^ 16)%Z with 65536%Z.
        apply Z.mod_small. pose proof (bf16_at_range outm i Hob). lia. }
      unfold dq_el_vec. destruct Hfp as [Eo|Eo]; subst dout; cbn [esize]; change (esize DT_F32) with 4; change (esize DT_BF16) with 2.
      * assert (Hr : reaches din op n i = op).
        { destruct Hq as [->|[->| ->]]; auto. exfalso. unfold vec_end, dq_block in Hv. destruct A; cbn in Hv; lia. }
        rewrite Hr. unfold el_f32, lane_mul. rewrite f32_at_ld.
        destruct Hq as [Ei|[Ei|Ei]]; rewrite Ei in *; [|destruct op; reflexivity|destruct op; reflexivity].
        exfalso. unfold vec_end, dq_block in Hv. destruct A; cbn in Hv; lia.
      * unfold el_bf16, bf16_convert, cvt_ps_to_bf16, lane_mul, lane_fma, vbias, fma_value, fneg.
        destruct Hq as [->|[->| ->]]; rewrite OLD; destruct op, A; reflexivity.
    + intros t i Ht Hbi Hv. assert (EV : vec i = false) by (rewrite (VP t i Ht Hbi); apply Nat.ltb_ge; exact Hv).
      assert (Hin : i < n). { pose proof (part_le (per_byte din) n nt Hpe Hnt (S t)). lia. }
      unfold step_put. rewrite dq_scalar_any by auto. specialize (HD i Hin). unfold E, X. rewrite EV. unfold v in *. rewrite EV in *.
      destruct (dequant_float din dout false scale zp (code_at din inm i)) as [x|]; [|congruence]. cbn [bind].
      destruct Hfp as [Eo|Eo]; subst dout; cbn [put]; unfold put_f32, put_bf16, put_bf16v; change (esize DT_F32) with 4; change (esize DT_BF16) with 2.
      * assert (Hr : dq_op din DT_F32 op n i = reaches din op n i) by (destruct Hq as [->|[->| ->]]; reflexivity).
        rewrite Hr, f32_at_ld. destruct (reaches din op n i); reflexivity.
      * assert (DO : dq_op din DT_BF16 op n i = op) by (destruct din; reflexivity). rewrite DO. destruct op; reflexivity.
Qed.

Lemma code_at_range din m i : quant_type din -> (0 <= code_at din m i <= code_max din)%Z.
Proof.
  intros H. unfold code_at. cbv zeta. set (v := (_ / _)%Z). pose proof (Z.mod_pos_bound v (2 ^ Z.of_nat (bit_size din))) as B.
  destruct H as [->|[->| ->]]; cbn [bit_size] in *;
    [change (2 ^ Z.of_nat 2)%Z with 4%Z in *; change (code_max DT_UINT2) with 3%Z
    |change (2 ^ Z.of_nat 4)%Z with 16%Z in *; change (code_max DT_UINT4) with 15%Z
    |change (2 ^ Z.of_nat 8)%Z with 256%Z in *; change (code_max DT_UINT8) with 255%Z]; lia.
Qed.

(** For every data and scale the call is defined as long as the zero point keeps away from the lower end of the integer type the scalar code subtracts
    in: int64 for uint2 -> f32, int32 (on the low 32 bits of the zero point) for uint8 and uint4; uint2 -> bf16 is always defined. *)
Theorem C07_defined A nt oaddr din dout scale zp op inm in_size outm r :
  dq_buffers nt din dout inm in_size outm -> (- 2 ^ 63 <= zp < 2 ^ 63)%Z -> Forall is_byte outm ->
  match din, dout with
  | DT_UINT2, DT_F32 => (- 2 ^ 63 + 3 < zp)%Z
  | DT_UINT2, _ => True
  | _, _ => (- 2 ^ 31 + code_max din < wrap32 zp)%Z
  end ->
  returns inm outm (dequantize_call A nt oaddr din dout scale zp op in_size outm) r -> exists o, r = Ok o /\ length o = length outm.
Proof.
  intros HB Hz Hob HD HR. destruct (C07_complete _ _ _ _ _ _ _ _ _ _ _ _ HB Hz Hob HR) as [_ G]. cbv zeta in G.
  destruct G as (o & -> & L & _); [|exists o; auto].
  intros i Hi. destruct HB as (Hq & Hfp & _). pose proof (code_at_range din inm i Hq) as HC. unfold dequant_float.
  destruct Hq as [->|[->| ->]], Hfp as [->| ->]; cbn [code_max] in *; try discriminate;
    repeat match goal with |- context [if ?b then _ else _] => let E := fresh "E" in destruct b eqn:E end; try discriminate; exfalso;
    try change (code_max DT_UINT2) with 3%Z in *; try change (code_max DT_UINT4) with 15%Z in *; try change (code_max DT_UINT8) with 255%Z in *; lia.
Qed.

(** It is not defined for every zero point: with the smallest int32 zero point, fewer than 16 elements (no vector iteration in any kernel set) and a
    nonzero code the call has undefined behaviour; for uint2 -> f32 the same holds with the smallest int64 zero point and any number of elements. *)
Theorem C07_zero_point_overflow_refuted A nt oaddr din dout scale zp op inm in_size outm r i :
  dq_buffers nt din dout inm in_size outm -> Forall is_byte outm -> let n := numel dout (length outm) in
  i < n -> (0 < code_at din inm i)%Z ->
  (din <> DT_UINT2 /\ n < 16 /\ zp = (- 2 ^ 31)%Z) \/ (din = DT_UINT2 /\ dout = DT_F32 /\ zp = (- 2 ^ 63)%Z) ->
  returns inm outm (dequantize_call A nt oaddr din dout scale zp op in_size outm) r -> r = UB.
Proof.
  intros HB Hob n Hi Hc HD HR. assert (Hz : (- 2 ^ 63 <= zp < 2 ^ 63)%Z) by lia.
  destruct (C07_complete _ _ _ _ _ _ _ _ _ _ _ _ HB Hz Hob HR) as [G _]. cbv zeta in G. fold n in G. apply G. clear G. exists i. split; auto.
  destruct HB as (Hq & Hfp & _ & _ & _ & HS & _). destruct HD as [(Hd & Hn & ->)|(-> & -> & ->)].
  - assert (V : dequant_vector_path A din dout n nt i = false).
    { apply Bool.not_true_iff_false. unfold dequant_vector_path. rewrite existsb_exists. intros (t & Ht & E). cbv zeta in E. apply in_seq in Ht.
      assert (Hpe : codes_per_byte din > 0) by (clear -Hq; destruct Hq as [->|[->| ->]]; cbn; lia).
      assert (Hnt : nt > 0) by lia. pose proof (part_le (codes_per_byte din) n nt Hpe Hnt (S t)) as Hle.
      set (lo := part_bound _ n nt t) in *. set (hi := part_bound _ n nt (S t)) in *.
      assert (B : dequant_block A din dout = 0 \/ 16 <= dequant_block A din dout).
      { clear -Hq Hfp. destruct Hq as [->|[->| ->]], Hfp as [->| ->], A; cbn; auto; right; apply Nat.leb_le; reflexivity. }
      destruct B as [B|B].
      - rewrite B in E. lia.
      - rewrite Nat.div_small in E by lia. lia. }
    rewrite V. unfold dequant_float. change (wrap32 (- 2 ^ 31)) with (- 2 ^ 31)%Z. clear V HR.
    destruct Hq as [->|[->| ->]]; [congruence| |]; destruct Hfp as [->| ->];
      (match goal with |- context [(?a <? ?b)%Z] => destruct (Z.ltb_spec a b) end; [exfalso; lia|reflexivity]).
  - unfold dequant_float. destruct (Z.ltb_spec (code_at DT_UINT2 inm i - - 2 ^ 63) (2 ^ 63)); [exfalso; lia|reflexivity].
Qed.
