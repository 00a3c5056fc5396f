(** PropsContract.v -- C46: dequantize and the fused call when the compiler contracts [old + a*scale] to a fused multiply-add (Contract.v), in the
    vector loops ([cv]), in the scalar loops ([cs]), in both or in neither. *)
From Coq Require Import ZArith List Lia Bool Arith ZifyBool ZifyNat Reals Lra.
From Flocq Require Import Core Relative Binary Bits.
From Verif Require Import Base Floats Simd Dtypes Spec ApiSpec QuantKernels DequantKernels ExecFacts FloatFacts QuantFacts QuantKernelFacts
  QuantGenericFacts DequantFacts DequantGenericFacts QuantLanes Context ContextFacts Footprint QuantizeFacts DequantizeFacts Api PropsQuantize Schedule
  PropsMemory FloatFacts2 PropsDequantize PropsRoundTrip Bf16Spec Bf16Facts PropsBf16 FloatFacts3 PropsDequantBf16 NoAbort PathSpec PropsPaths PropsDequantAny
  Contract ContractFacts.
Import ListNotations.
Ltac Zify.zify_post_hook ::= Z.div_mod_to_equations.

(** ** Vocabulary *)
Definition dequantize_call_c (cv cs : bool) (A : arch) (nt : nat) (oaddr : Z) (din dout : dtype) (scale : f32) (zp : Z) (op : reduce_op)
    (in_size : nat) (outm : mem) : res (list (list action)) :=
  dequantize_c cv cs A nt oaddr (Z.of_nat in_size) din (Z.of_nat (length outm)) dout scale zp op.
Definition fused_call_c (cv cs : bool) (A : arch) (nt : nat) (oaddr : Z) (dt dq : dtype) (scale : f32) (zp : Z) (rm : round_mode_t) (op : reduce_op) (thr : f32)
    (inm outm : mem) : res (list (list action)) :=
  quantize_dequantize_fused_c cv cs A nt oaddr (Z.of_nat (length inm)) dt (Z.of_nat (length outm)) dq scale zp rm op thr.
(** old + a*scale with one rounding (contracted) or two *)
Definition accumulate (contracted : bool) (old a scale : f32) : f32 :=
  if contracted then ffma a scale old else fadd old (fmul a scale).

(** The path predicate of PropsDequantAny.v, from the thread that owns the element. *)
Lemma vector_path_owner A din dout n nt t i : quant_type din -> float_type dout -> nt > 0 -> t < nt ->
  part_bound (per_byte din) n nt t <= i < part_bound (per_byte din) n nt (S t) ->
  dequant_vector_path A din dout n nt i =
  (i - part_bound (per_byte din) n nt t <? vec_end (dq_block A din dout) (part_bound (per_byte din) n nt (S t) - part_bound (per_byte din) n nt t)).
Proof.
  intros Hq Hfp Hnt Ht Hti. assert (Hpe : per_byte din > 0) by (clear -Hq; destruct Hq as [->|[->| ->]]; cbn; lia).
  unfold dequant_vector_path, vec_end. rewrite codes_per_byte_q, dequant_block_dq by auto.
  apply Bool.eq_iff_eq_true. rewrite existsb_exists. split.
  - intros (t' & Hin' & Hp). apply in_seq in Hin'. cbv zeta in Hp. apply andb_prop in Hp. destruct Hp as [Hp1 Hp2].
    apply andb_prop in Hp1. destruct Hp1 as [Hp1 Hp3]. apply Nat.leb_le in Hp1. apply Nat.ltb_lt in Hp3.
    assert (t' = t).
    { destruct (Nat.lt_trichotomy t' t) as [L|[L|L]]; auto; exfalso.
      - pose proof (part_mono' _ n nt Hpe Hnt (S t') t ltac:(lia)). lia.
      - pose proof (part_mono' _ n nt Hpe Hnt (S t) t' ltac:(lia)). lia. }
    subst t'. exact Hp2.
  - intros Hp. exists t. split; [apply in_seq; lia|]. cbv zeta. rewrite Hp.
    rewrite (proj2 (Nat.leb_le _ _)), (proj2 (Nat.ltb_lt _ _)) by lia. reflexivity.
Qed.

(** ** Calls that contraction does not change *)
(** SET stores: for all arguments, whatever the compiler contracts. *)
Theorem C46_set_unaffected cv cs A nt oaddr in_size din out_size dout scale zp :
  dequantize_c cv cs A nt oaddr in_size din out_size dout scale zp RO_SET = dequantize A nt oaddr in_size din out_size dout scale zp RO_SET.
Proof. apply dequantize_inert. left. reflexivity. Qed.
Theorem C46_fused_set_unaffected cv cs A nt oaddr in_size dt out_size dq scale zp rm thr :
  quantize_dequantize_fused_c cv cs A nt oaddr in_size dt out_size dq scale zp rm RO_SET thr =
  quantize_dequantize_fused A nt oaddr in_size dt out_size dq scale zp rm RO_SET thr.
Proof. apply fused_inert. left. reflexivity. Qed.
(** A compiler that contracts nothing builds the kernels of the other theorems. *)
Theorem C46_uncontracted A nt oaddr in_size din out_size dout scale zp op rm thr :
  dequantize_c false false A nt oaddr in_size din out_size dout scale zp op = dequantize A nt oaddr in_size din out_size dout scale zp op /\
  quantize_dequantize_fused_c false false A nt oaddr in_size dout out_size din scale zp rm op thr =
  quantize_dequantize_fused A nt oaddr in_size dout out_size din scale zp rm op thr.
Proof. split; [apply dequantize_inert|apply fused_inert]; right; auto. Qed.

(** ** dequantize(add) to f32 *)
Theorem dequantize_f32_c cv cs A nt oaddr din scale zp inm in_size outm r :
  dq_buffers nt din DT_F32 inm in_size outm -> (Z.abs zp <= 2 ^ 30)%Z -> finite scale ->
  returns inm outm (dequantize_call_c cv cs A nt oaddr din DT_F32 scale zp RO_ADD in_size outm) r ->
  let n := numel DT_F32 (length outm) in
  exists o, r = Ok o /\ length o = length outm /\
    (forall i, i < n -> slice (4 * i) 4 o = le_bytes 4 (bits_of_f32 (
       match reaches din RO_ADD n i with
       | RO_SET => dequant_value scale zp (code_at din inm i)
       | RO_ADD => accumulate (if dequant_vector_path A din DT_F32 n nt i then cv else cs) (f32_at outm i) (f32_of_Z (code_at din inm i - zp)) scale
       end))) /\
    (forall k, 4 * n <= k -> nth k o 0%Z = nth k outm 0%Z).
Proof.
  intros (Hq & Hfp & Hb & Hi & Hle & HS & Hx) Hz Hs HR n. unfold dequantize_call_c in HR.
  set (E := fun i => le_bytes 4 (bits_of_f32 (
       match reaches din RO_ADD n i with
       | RO_SET => dequant_value scale zp (code_at din inm i)
       | RO_ADD => accumulate (if dequant_vector_path A din DT_F32 n nt i then cv else cs) (f32_at outm i) (f32_of_Z (code_at din inm i - zp)) scale
       end))).
  assert (EL : forall i, i < n -> length (E i) = 4) by (intros; apply le_bytes_length).
  pose proof (numel_le DT_F32 (length outm) Hfp) as Hn. change (esize DT_F32) with 4 in *. fold n in Hn.
  assert (HC : forall i, (0 <= code_at din inm i < 256)%Z) by (intros; apply code_at_lt; auto).
  assert (Hnt : nt > 0) by apply HS.
  assert (HR' := dequantize_core_c cv cs A nt oaddr in_size din (length outm) DT_F32 scale zp RO_ADD inm outm E r Hq Hfp Hi HS Hb Hle).
  change (esize DT_F32) with 4 in HR'. fold n in HR'.
  apply HR' in HR; auto; clear HR'.
  - rewrite HR. eexists. split; [reflexivity|]. rewrite app_length, map_length, seq_length, skipn_length. split; [lia|]. split.
    + intros i Hi'. rewrite slice_byteE; auto. lia.
    + intros k Hk. rewrite app_nth2 by (rewrite map_length, seq_length; lia). rewrite map_length, seq_length.
      rewrite nth_skipn. f_equal. lia.
  - intros -> E2 Hn0. specialize (Hx eq_refl E2). fold n in Hx, Hi. subst in_size. unfold bytes_for in *. cbn [bit_size] in *.
    destruct (Nat.eq_dec (n mod 4) 0) as [E0|E0]; [specialize (Hx E0 Hn0)|]; lia.
  - intros t i Ht Hbi Hv. unfold E. rewrite (vector_path_owner A din DT_F32 n nt t i) by auto.
    rewrite (proj2 (Nat.ltb_lt _ _)) by exact Hv.
    assert (Hr : reaches din RO_ADD n i = RO_ADD).
    { destruct Hq as [->|[->| ->]]; auto. exfalso. unfold vec_end, dq_block in Hv. destruct A; cbn in Hv; lia. }
    rewrite Hr. unfold dq_el_vec_c. unfold el_f32_c, accumulate. pose proof (HC i) as HCi.
    rewrite (wrap32_id zp) by lia. rewrite wrap32_id by lia. rewrite f32_at_ld. destruct cv; [reflexivity|].
    f_equal. f_equal. apply fadd_comm. intros [_ N]. revert N. apply dequant_value_not_nan; auto.
  - intros t i Ht Hbi Hv. unfold E. rewrite (vector_path_owner A din DT_F32 n nt t i) by auto.
    rewrite (proj2 (Nat.ltb_ge _ _)) by exact Hv. pose proof (HC i) as HCi.
    assert (Hr : dq_op din DT_F32 RO_ADD n i = reaches din RO_ADD n i) by (destruct Hq as [->|[->| ->]]; reflexivity).
    rewrite Hr. assert (W : wrap32 zp = zp) by (apply wrap32_id; lia).
    unfold dq_el_scalar_c, step_put. destruct Hq as [->|[->| ->]]; unfold diff_i32, diff_i64, i32, i64; rewrite ?W;
      [rewrite in_i64_ok by lia|rewrite in_i32_ok by lia|rewrite in_i32_ok by lia]; cbn [bind]; unfold put_f32_c, accumulate;
      destruct (reaches _ RO_ADD n i); reflexivity.
Qed.

(** Each element, bit for bit: one rounding where the loop that handles it is contracted, two elsewhere. *)
Theorem C46_add_f32 cv cs A nt oaddr din scale zp inm in_size outm r :
  dq_buffers nt din DT_F32 inm in_size outm -> (Z.abs zp <= 2 ^ 30)%Z -> finite scale ->
  returns inm outm (dequantize_call_c cv cs A nt oaddr din DT_F32 scale zp RO_ADD in_size outm) r ->
  let n := numel DT_F32 (length outm) in
  exists o, r = Ok o /\ length o = length outm /\
    (forall i, i < n -> (din = DT_UINT2 -> i < 4 * (n / 4)) ->
       f32_at o i = accumulate (if dequant_vector_path A din DT_F32 n nt i then cv else cs) (f32_at outm i) (f32_of_Z (code_at din inm i - zp)) scale) /\
    (* uint2: the elements behind the last whole byte are overwritten, as without contraction (C08) *)
    (forall i, din = DT_UINT2 -> 4 * (n / 4) <= i < n -> f32_at o i = fmul (f32_of_Z (code_at din inm i - zp)) scale) /\
    (forall k, 4 * n <= k -> nth k o 0%Z = nth k outm 0%Z).
Proof.
  intros HB Hz Hs HR n. destruct (dequantize_f32_c _ _ _ _ _ _ _ _ _ _ _ _ HB Hz Hs HR) as (o & -> & HL & HE & HF).
  fold n in HE, HF. exists o. split; auto. split; auto. split; [|split; auto].
  - intros i Hi Ht. rewrite (f32_at_ld o), HE by auto. rewrite ld_f32_bytes. unfold reaches. destruct din; auto.
    destruct (Nat.ltb_spec i (4 * (n / 4))) as [L|L]; auto. specialize (Ht eq_refl). lia.
  - intros i -> Hi. rewrite (f32_at_ld o), HE by lia. rewrite ld_f32_bytes. unfold reaches.
    destruct (Nat.ltb_spec i (4 * (n / 4))) as [L|L]; auto. lia.
Qed.

(** Scalar and vector loops built alike: the result depends on neither the kernel set, the thread count, the schedule nor the output address. *)
Theorem C46_uniform_contraction_deterministic c A A' nt nt' oaddr oaddr' din scale zp inm in_size outm r r' :
  dq_buffers nt din DT_F32 inm in_size outm -> dq_buffers nt' din DT_F32 inm in_size outm -> (Z.abs zp <= 2 ^ 30)%Z -> finite scale ->
  returns inm outm (dequantize_call_c c c A nt oaddr din DT_F32 scale zp RO_ADD in_size outm) r ->
  returns inm outm (dequantize_call_c c c A' nt' oaddr' din DT_F32 scale zp RO_ADD in_size outm) r' -> r = r'.
Proof.
  intros HB HB' Hz Hs HR HR'. set (n := numel DT_F32 (length outm)).
  destruct (dequantize_f32_c _ _ _ _ _ _ _ _ _ _ _ _ HB Hz Hs HR) as (o & -> & HL & HE & HF).
  destruct (dequantize_f32_c _ _ _ _ _ _ _ _ _ _ _ _ HB' Hz Hs HR') as (o' & -> & HL' & HE' & HF'). fold n in HE, HF, HE', HF'.
  f_equal. apply list_ext; [lia|]. intros k Hk. destruct (Nat.lt_ge_cases k (4 * n)) as [L|L].
  - assert (G : slice (4 * (k / 4)) 4 o = slice (4 * (k / 4)) 4 o').
    { rewrite HE, HE' by lia. destruct (dequant_vector_path A _ _ _ _ _), (dequant_vector_path A' _ _ _ _ _); reflexivity. }
    apply (f_equal (fun l => nth (k mod 4) l 0%Z)) in G.
    rewrite !nth_slice in G by lia. replace (4 * (k / 4) + k mod 4) with k in G by lia. exact G.
  - rewrite HF, HF' by auto. reflexivity.
Qed.

(** ** Accuracy, whatever the compiler contracts *)
Lemma RN32_err x : (Rabs (RN32 x - x) <= bpow radix2 (-24) * Rabs x + bpow radix2 (-150))%R.
Proof.
  destruct (error_N_FLT radix2 (-149) 24 ltac:(lia) (fun z => negb (Z.even z)) x) as (eps & eta & H1 & H2 & _ & H4).
  unfold RN32. change ZnearestE with (Znearest (fun z => negb (Z.even z))). rewrite H4.
  replace (x * (1 + eps) + eta - x)%R with (x * eps + eta)%R by ring.
  eapply Rle_trans; [apply Rabs_triang|]. rewrite Rabs_mult.
  assert (P24 : (/ 2 * bpow radix2 (- (24) + 1) = bpow radix2 (-24))%R).
  { change (- (24) + 1)%Z with (1 + -24)%Z. rewrite bpow_plus. change (bpow radix2 1) with 2%R. field. }
  assert (P150 : (/ 2 * bpow radix2 (-149) = bpow radix2 (-150))%R).
  { change (-149)%Z with (1 + -150)%Z. rewrite bpow_plus. change (bpow radix2 1) with 2%R. field. }
  rewrite P24 in H1. rewrite P150 in H2. apply Rplus_le_compat; auto. rewrite Rmult_comm. apply Rmult_le_compat_r; auto. apply Rabs_pos.
Qed.
Lemma RN32_no_overflow x : (Rabs x <= bpow radix2 127)%R -> (Rabs (RN32 x) < max32)%R.
Proof.
  intros H. apply Rle_lt_trans with (bpow radix2 127); [|unfold max32; apply bpow_lt; lia].
  unfold RN32. rewrite <- round_NE_abs by typeclasses eauto. 
  apply round_le_generic; [typeclasses eauto|typeclasses eauto| |exact H].
  apply (fmt32_bpow 127). lia.
Qed.

Theorem C46_accuracy cv cs A nt oaddr din scale zp inm in_size outm r i :
  dq_buffers nt din DT_F32 inm in_size outm -> (Z.abs zp <= 2 ^ 23)%Z -> finite scale ->
  returns inm outm (dequantize_call_c cv cs A nt oaddr din DT_F32 scale zp RO_ADD in_size outm) r ->
  let n := numel DT_F32 (length outm) in
  let x := (IZR (code_at din inm i - zp) * val scale)%R in
  let old := val (f32_at outm i) in
  i < n -> (din = DT_UINT2 -> i < 4 * (n / 4)) -> finite (f32_at outm i) -> (Rabs old + Rabs x <= bpow radix2 126)%R ->
  exists o, r = Ok o /\ finite (f32_at o i) /\
    (Rabs (val (f32_at o i) - (old + x)) <= bpow radix2 (-24) * Rabs (old + x) + bpow radix2 (-23) * Rabs x + bpow radix2 (-148))%R.
Proof.
  intros HB Hz Hs HR n x old Hi Hu Hfo Hov.
  assert (Hz30 : (Z.abs zp <= 2 ^ 30)%Z) by lia.
  destruct (C46_add_f32 _ _ _ _ _ _ _ _ _ _ _ _ HB Hz30 Hs HR) as (o & -> & _ & HE & _). fold n in HE.
  exists o. split; auto. rewrite HE by auto. clear HE HR.
  assert (HC : (0 <= code_at din inm i < 256)%Z) by (apply code_at_lt; apply HB).
  destruct (f32_of_Z_exact (code_at din inm i - zp)) as [Fa Va]; [lia|].
  set (a := f32_of_Z (code_at din inm i - zp)) in *. assert (Ex : x = (val a * val scale)%R) by (unfold x; rewrite Va; reflexivity).
  assert (P23 : (bpow radix2 (-23) = 2 * bpow radix2 (-24))%R).
  { change (-23)%Z with (1 + -24)%Z. rewrite bpow_plus. change (bpow radix2 1) with 2%R. reflexivity. }
  assert (P148 : (bpow radix2 (-148) = 4 * bpow radix2 (-150))%R).
  { change (-148)%Z with (2 + -150)%Z. rewrite bpow_plus. change (bpow radix2 2) with 4%R. reflexivity. }
  assert (P126 : (bpow radix2 127 = 2 * bpow radix2 126)%R).
  { change 127%Z with (1 + 126)%Z. rewrite bpow_plus. change (bpow radix2 1) with 2%R. reflexivity. }
  assert (U : (0 < bpow radix2 (-24) < / 4)%R).
  { split; [apply bpow_gt_0|]. apply Rlt_le_trans with (bpow radix2 (-3)); [apply bpow_lt; lia|]. change (bpow radix2 (-3)) with (/ 8)%R. lra. }
  assert (V : (0 < bpow radix2 (-150) < bpow radix2 126)%R) by (split; [apply bpow_gt_0|apply bpow_lt; lia]).
  assert (W : (bpow radix2 (-150) < / 8)%R).
  { apply Rlt_le_trans with (bpow radix2 (-3)); [apply bpow_lt; lia|]. change (bpow radix2 (-3)) with (/ 8)%R. lra. }
  assert (One : (1 < bpow radix2 126)%R) by (change 1%R with (bpow radix2 0); apply bpow_lt; lia).
  rewrite P23, P148. set (u := bpow radix2 (-24)) in *. set (e := bpow radix2 (-150)) in *. set (B := bpow radix2 126) in *.
  pose proof (Rabs_pos x) as Px. pose proof (Rabs_pos old) as Po. pose proof (Rabs_triang old x) as Tr. pose proof (Rabs_pos (old + x)) as Ps.
  assert (M0 : (0 <= u * Rabs x)%R) by (apply Rmult_le_pos; lra). assert (M1 : (0 <= u * Rabs (old + x))%R) by (apply Rmult_le_pos; lra).
  unfold accumulate. destruct (if dequant_vector_path A din DT_F32 n nt i then cv else cs).
  - destruct (ffma_ok a scale (f32_at outm i)) as [F VV]; auto.
    + apply RN32_no_overflow. rewrite <- Ex. fold old. rewrite Rplus_comm. lra.
    + split; auto. rewrite VV, <- Ex. fold old. rewrite (Rplus_comm x old). pose proof (RN32_err (old + x)) as E. fold u e in E. lra.
  - pose proof (RN32_err x) as E1. fold u e in E1.
    assert (Qx : (u * Rabs x <= / 4 * Rabs x)%R) by (apply Rmult_le_compat_r; lra).
    destruct (fmul_ok a scale) as [F1 V1]; auto.
    { apply RN32_no_overflow. rewrite <- Ex. lra. }
    rewrite <- Ex in V1. set (p := fmul a scale) in *.
    assert (D : (old + val p = (old + x) + (RN32 x - x))%R) by (rewrite V1; ring).
    assert (Ap : (Rabs (old + val p) <= Rabs (old + x) + (u * Rabs x + e))%R).
    { rewrite D. eapply Rle_trans; [apply Rabs_triang|]. lra. }
    destruct (fadd_ok (f32_at outm i) p) as [F2 V2]; auto.
    { apply RN32_no_overflow. fold old. lra. }
    split; auto. rewrite V2. fold old. pose proof (RN32_err (old + val p)) as E2. fold u e in E2.
    replace (RN32 (old + val p) - (old + x))%R with ((RN32 (old + val p) - (old + val p)) + (RN32 x - x))%R by (rewrite V1; ring).
    eapply Rle_trans; [apply Rabs_triang|].
    assert (Q2 : (u * Rabs (old + val p) <= u * Rabs (old + x) + / 4 * (u * Rabs x) + / 4 * e)%R).
    { apply Rle_trans with (u * (Rabs (old + x) + (u * Rabs x + e)))%R; [apply Rmult_le_compat_l; lra|].
      rewrite !Rmult_plus_distr_l.
      assert ((u * (u * Rabs x) <= / 4 * (u * Rabs x))%R) by (apply Rmult_le_compat_r; lra).
      assert ((u * e <= / 4 * e)%R) by (apply Rmult_le_compat_r; lra). lra. }
    lra.
Qed.

(** ** dequantize(add) to bf16: only the AVX-512 loop of uint8 is affected, before its one rounding to bf16 *)
Theorem C46_add_bf16 cv cs A nt oaddr din scale zp inm in_size outm r :
  dq_buffers nt din DT_BF16 inm in_size outm -> (Z.abs zp <= 2 ^ 22)%Z -> Forall is_byte outm ->
  returns inm outm (dequantize_call_c cv cs A nt oaddr din DT_BF16 scale zp RO_ADD in_size outm) r ->
  let n := numel DT_BF16 (length outm) in
  exists o, r = Ok o /\ length o = length outm /\
    (forall i, i < n ->
       let old := bf16_at outm i in let code := code_at din inm i in
       bf16_at o i =
         if bf16_vector_path A din n nt i
         then bf16_convert A true (match din with
                | DT_UINT8 => if cv then ffma (f32_of_Z (code - zp)) scale (bf16_to_f32 old) else fadd (fmul (f32_of_Z (code - zp)) scale) (bf16_to_f32 old)
                | _ => fadd (fma_value scale zp code) (bf16_to_f32 old)
                end)
         else bf16_add old (bf16_of_f32 (fmul (f32_of_Z (code - zp)) scale))) /\
    (forall k, 2 * n <= k -> nth k o 0%Z = nth k outm 0%Z).
Proof.
  intros (Hq & Hfp & Hb & Hi & Hle & HS & Hx) Hz Hob HR n. unfold dequantize_call_c in HR.
  assert (Hnt : nt > 0) by apply HS.
  assert (PE : forall i, bf16_vector_path A din n nt i = dequant_vector_path A din DT_BF16 n nt i).
  { intros i. unfold bf16_vector_path, dequant_vector_path, dequant_block. destruct (avx512 A); [reflexivity|]. cbn [andb]. symmetry.
    apply Bool.not_true_iff_false. rewrite existsb_exists. intros (t & _ & E). cbv zeta in E. rewrite Nat.mul_0_l in E. lia. }
  set (E0 := fun i => let old := bf16_at outm i in let code := code_at din inm i in
         if bf16_vector_path A din n nt i
         then bf16_convert A true (match din with
                | DT_UINT8 => if cv then ffma (f32_of_Z (code - zp)) scale (bf16_to_f32 old) else fadd (fmul (f32_of_Z (code - zp)) scale) (bf16_to_f32 old)
                | _ => fadd (fma_value scale zp code) (bf16_to_f32 old)
                end)
         else bf16_add old (bf16_of_f32 (fmul (f32_of_Z (code - zp)) scale))).
  set (E := fun i => le_bytes 2 (E0 i)).
  assert (EL : forall i, i < n -> length (E i) = 2) by (intros; apply le_bytes_length).
  pose proof (numel_le DT_BF16 (length outm) Hfp) as Hn. change (esize DT_BF16) with 2 in *. fold n in Hn.
  assert (HC : forall i, (0 <= code_at din inm i < 256)%Z) by (intros; apply code_at_lt; auto).
  assert (HR' := dequantize_core_c cv cs A nt oaddr in_size din (length outm) DT_BF16 scale zp RO_ADD inm outm E r Hq Hfp Hi HS Hb Hle).
  change (esize DT_BF16) with 2 in HR'. fold n in HR'.
  apply HR' in HR; auto; clear HR'.
  - rewrite HR. eexists. split; [reflexivity|]. rewrite app_length, map_length, seq_length, skipn_length. split; [lia|]. split.
    + intros i Hi' old code. rewrite (bf16_at_slice (_ ++ _)), slice_byteE; auto; try lia. unfold E. rewrite le_val_bytes2; [reflexivity|].
      unfold E0. cbv zeta. destruct (bf16_vector_path _ _ _ _ _); [apply convert_range|apply of_f32_range].
    + intros k Hk. rewrite app_nth2 by (rewrite map_length, seq_length; lia). rewrite map_length, seq_length.
      rewrite nth_skipn. f_equal. lia.
  - intros _ E2. discriminate.
  - intros t i Ht Hbi Hv. unfold E, E0. cbv zeta. rewrite PE, (vector_path_owner A din DT_BF16 n nt t i) by auto.
    rewrite (proj2 (Nat.ltb_lt _ _)) by exact Hv.
    assert (AV : avx512 A = true) by (rewrite dq_block_bf16 in Hv by auto; unfold vec_end in Hv; destruct (avx512 A); auto; cbn in Hv; lia).
    assert (W : wrap32 zp = zp) by (apply wrap32_id; lia). pose proof (HC i) as HCi.
    assert (OLD : f32_of_bits ((Z.shiftl (le_val (slice (2 * i) 2 outm)) 16) mod 4294967296) = bf16_to_f32 (bf16_at outm i)).
    { unfold bf16_to_f32. f_equal. fold (bf16_at outm i). rewrite Z.shiftl_mul_pow2 by lia. change (2 ^ 16)%Z with 65536%Z.
      apply Z.mod_small. pose proof (bf16_at_range outm i Hob). lia. }
    unfold dq_el_vec_c, dq_el_vec, bf16_convert, el_bf16_c, el_bf16, cvt_ps_to_bf16.
    destruct Hq as [->|[->| ->]]; rewrite OLD; unfold lane_fma, vbias, fma_value, fneg; rewrite ?W; rewrite ?wrap32_id by lia;
      destruct A; try discriminate; reflexivity.
  - intros t i Ht Hbi Hv. unfold E, E0. cbv zeta. rewrite PE, (vector_path_owner A din DT_BF16 n nt t i) by auto.
    rewrite (proj2 (Nat.ltb_ge _ _)) by exact Hv.
    assert (DQ : dq_scalar din DT_BF16 scale zp (code_at din inm i) = Ok (dequant_value scale zp (code_at din inm i))).
    { assert (W : wrap32 zp = zp) by (apply wrap32_id; lia). pose proof (HC i). unfold dq_scalar, dequant_value.
      destruct Hq as [->|[->| ->]]; unfold dq_i32, dq_sub, i32; rewrite W; rewrite ?in_i32_ok by lia; cbn [bind]; auto.
      rewrite fsub_int by lia. reflexivity. }
    unfold dq_el_scalar_c, step_put. rewrite DQ. cbn [bind]. unfold put_bf16, put_bf16v.
    assert (DO : dq_op din DT_BF16 RO_ADD n i = RO_ADD) by (destruct din; reflexivity). rewrite DO. reflexivity.
Qed.

(** ** The fused call *)
Lemma fused_add_f32_c cv cs A nt oaddr dq scale zp rm thr inm outm r :
  let n := numel DT_F32 (length outm) in
  quant_type dq -> length inm = length outm -> sizes_ok (length outm) n nt -> good_scale scale -> (Z.abs zp <= 2 ^ 62)%Z ->
  (rm = RM_STOCHASTIC -> threshold thr) -> (forall i, i < n -> quantizable scale (f32_at inm i)) ->
  returns inm outm (fused_call_c cv cs A nt oaddr DT_F32 dq scale zp rm RO_ADD thr inm outm) r ->
  exists o, r = Ok o /\ length o = length outm /\
    (forall i, i < n -> slice (4 * i) 4 o =
       le_bytes 4 (bits_of_f32 (accumulate cs (f32_at outm i) (f32_of_Z (expected_code rm dq scale zp thr (f32_at inm i) - zp)) scale))) /\
    (forall k, 4 * n <= k -> nth k o 0%Z = nth k outm 0%Z).
Proof.
  intros n Hq HL HS Hsc Hz Ht HX HR. unfold fused_call_c in HR. rewrite HL in HR.
  set (E := fun i => le_bytes 4 (bits_of_f32 (accumulate cs (f32_at outm i) (f32_of_Z (expected_code rm dq scale zp thr (f32_at inm i) - zp)) scale))).
  assert (EL : forall i, i < n -> length (E i) = 4) by (intros; apply le_bytes_length).
  pose proof (numel_le DT_F32 (length outm) ltac:(left; reflexivity)) as Hn. change (esize DT_F32) with 4 in *. fold n in Hn.
  assert (HR' := fused_core_c cv cs A nt oaddr (length outm) DT_F32 dq scale zp rm RO_ADD thr inm outm E r ltac:(left; reflexivity) Hq HS ltac:(lia) ltac:(lia)).
  change (esize DT_F32) with 4 in HR'. cbv zeta in HR'. fold n in HR'.
  apply HR' in HR; auto; clear HR'.
  - rewrite HR. eexists. split; [reflexivity|]. rewrite app_length, map_length, seq_length, skipn_length. split; [lia|]. split.
    + intros i Hi'. rewrite slice_byteE; auto. lia.
    + intros k Hk. rewrite app_nth2 by (rewrite map_length, seq_length; lia). rewrite map_length, seq_length.
      rewrite nth_skipn. f_equal. lia.
  - intros i Hi'. unfold requant_elem_c. cbn [ld]. change (ld_f32 (slice (4 * i) 4 inm)) with (f32_at inm i).
    rewrite quant_step_ok by auto. cbn [bind]. pose proof (expected_range rm dq scale zp thr (f32_at inm i) Hq). pose proof (code_max_range dq Hq).
    unfold diff_i64, i64. rewrite in_i64_ok by lia. cbn [bind]. unfold put_f32_c, E, accumulate. reflexivity.
Qed.

Theorem C46_fused_add_f32 cv cs A nt oaddr dq scale zp rm thr inm outm r :
  let n := numel DT_F32 (length outm) in
  quant_type dq -> length inm = length outm -> sizes_ok (length outm) n nt -> good_scale scale -> (Z.abs zp <= 2 ^ 62)%Z ->
  (rm = RM_STOCHASTIC -> threshold thr) -> (forall i, i < n -> quantizable scale (f32_at inm i)) ->
  returns inm outm (fused_call_c cv cs A nt oaddr DT_F32 dq scale zp rm RO_ADD thr inm outm) r ->
  exists o, r = Ok o /\ length o = length outm /\
    (forall i, i < n -> f32_at o i = accumulate cs (f32_at outm i) (f32_of_Z (expected_code rm dq scale zp thr (f32_at inm i) - zp)) scale) /\
    (forall k, 4 * n <= k -> nth k o 0%Z = nth k outm 0%Z).
Proof.
  intros n Hq HL HS Hsc Hz Ht HX HR.
  destruct (fused_add_f32_c _ _ _ _ _ _ _ _ _ _ _ _ _ Hq HL HS Hsc Hz Ht HX HR) as (o & -> & L1 & E1 & F1). exists o.
  split; auto. split; auto. split; auto. intros i Hi. rewrite (f32_at_ld o), E1 by auto. apply ld_f32_bytes.
Qed.

(** The fused call still equals quantize followed by dequantize when the loops are built alike. *)
Theorem C46_fused_equals_two_calls c cv A A1 A2 nt nt1 nt2 oaddr oaddr1 oaddr2 dq scale zp rm thr inm pk p extra outm r1 r2 :
  let n := numel DT_F32 (length outm) in
  buffers_ok nt1 DT_F32 dq inm pk -> length inm = length outm -> sizes_ok (length outm) n nt -> sizes_ok (length outm) n nt2 ->
  good_scale scale -> finite scale -> (Z.abs zp <= 2 ^ 22)%Z -> (rm = RM_STOCHASTIC -> threshold thr) ->
  (forall i, i < n -> input_ok A1 rm scale zp thr (f32_at inm i)) ->
  (dq = DT_UINT2 -> n mod 4 = 0) ->
  Forall is_byte extra -> extra <> [] ->
  returns inm outm (fused_call_c cv c A nt oaddr DT_F32 dq scale zp rm RO_ADD thr inm outm) r1 ->
  returns inm pk (quantize_call A1 nt1 oaddr1 DT_F32 dq scale zp rm thr inm pk) (Ok p) ->
  returns (p ++ extra) outm (dequantize_call_c c c A2 nt2 oaddr2 dq DT_F32 scale zp RO_ADD (length p) outm) r2 ->
  r1 = r2 /\ exists o, r1 = Ok o.
Proof.
  intros n HB HL HS HS2 Hsc Hfs Hz Ht HI Hu2 He Hne HF HQ HD.
  assert (Hn : numel DT_F32 (length inm) = n) by (unfold n; rewrite HL; reflexivity).
  pose proof HB as (Hfp & Hq & Hb & Hl & HS1).
  assert (Hz30 : (Z.abs zp <= 2 ^ 30)%Z) by lia. assert (Hz62 : (Z.abs zp <= 2 ^ 62)%Z) by lia.
  assert (H1 : rm = RM_STOCHASTIC -> threshold thr /\ (Z.abs zp <= 2 ^ 62)%Z) by (intros; split; auto; lia).
  assert (HI' : forall i, i < numel DT_F32 (length inm) -> input_ok A1 rm scale zp thr (elem_at DT_F32 inm i)) by (rewrite Hn; exact HI).
  destruct (quantize_codes _ _ _ _ _ _ _ _ _ _ _ _ HB Hsc H1 (fun _ => Hz) HI' HQ) as (p' & E & HLp & Hby & HC). injection E as <-.
  assert (HB' : dq_buffers nt2 dq DT_F32 (p ++ extra) (length p) outm).
  { repeat split; auto; try (left; reflexivity); try apply HS2.
    - apply Forall_app; auto.
    - rewrite HLp, Hl, Hn. reflexivity.
    - rewrite app_length. lia.
    - intros. rewrite app_length. destruct extra; [congruence|]. cbn. lia. }
  destruct (dequantize_f32_c _ _ _ _ _ _ _ _ _ _ _ _ HB' Hz30 Hfs HD) as (o2 & -> & L2 & E2 & F2).
  assert (HX : forall i, i < n -> quantizable scale (f32_at inm i)).
  { intros i Hi. specialize (HI i Hi). destruct rm; cbn [input_ok] in HI; unfold nearest_ok in HI; tauto. }
  destruct (fused_add_f32_c _ _ _ _ _ _ _ _ _ _ _ _ _ Hq HL HS Hsc Hz62 Ht HX HF) as (o1 & -> & L1 & E1 & F1).
  split; [|eauto]. f_equal. fold n in E1, F1, E2, F2.
  assert (G : forall i, i < n -> slice (4 * i) 4 o1 = slice (4 * i) 4 o2).
  { intros i Hi. rewrite E1, E2 by auto.
    rewrite code_at_app, HC; auto; [|rewrite Hn; auto|rewrite HLp, Hl, Hn, codes_per_byte_q, bytes_for_per_byte by auto; destruct Hq as [->|[->| ->]]; cbn [per_byte]; lia].
    cbn [elem_at].
    assert (Hr : reaches dq RO_ADD n i = RO_ADD).
    { unfold reaches. destruct dq; auto. specialize (Hu2 eq_refl). destruct (Nat.ltb_spec i (4 * (n / 4))); auto. lia. }
    rewrite Hr. destruct (dequant_vector_path _ _ _ _ _ _); reflexivity. }
  apply list_ext; [lia|]. intros k Hk. destruct (Nat.lt_ge_cases k (4 * n)) as [L|L].
  - specialize (G (k / 4) ltac:(lia)). apply (f_equal (fun l => nth (k mod 4) l 0%Z)) in G.
    rewrite !nth_slice in G by lia. replace (4 * (k / 4) + k mod 4) with k in G by lia. exact G.
  - rewrite F1, F2 by auto. reflexivity.
Qed.

(** ** Mixed builds *)
(** If the compiler contracts only the vector loops or only the scalar loops, the result of dequantize(add) depends on the number of threads, on every
    kernel set with vector code: 64 codes 3 with scale 0.1f and zero point 0, added to -(3 * 0.1f); one thread runs the vector loop, 64 threads run the
    scalar loop. *)
Definition tenth : f32 := f32_of_bits 0x3dcccccd.
Definition mixed_in : mem := repeat 3%Z 64.
Definition mixed_out : mem := concat (repeat (le_bytes 4 (bits_of_f32 (b32_opp (fmul (f32_of_Z 3) tenth)))) 64).
Lemma mixed_buffers nt : 1 <= nt <= 64 -> dq_buffers nt DT_UINT8 DT_F32 mixed_in 64 mixed_out.
Proof.
  intros H. assert (L : length mixed_out = 256) by (vm_compute; reflexivity). unfold dq_buffers. rewrite L. cbv zeta.
  split; [right; right; reflexivity|]. split; [left; reflexivity|].
  split; [apply Forall_forall; intros x Hx; apply repeat_spec in Hx; subst x; unfold is_byte; lia|].
  split; [reflexivity|]. split; [reflexivity|]. split; [|discriminate]. change (numel DT_F32 256) with 64. unfold sizes_ok. lia.
Qed.
Theorem C46_mixed_contraction_refuted cv cs A oaddr : cv <> cs -> A <> GENERIC ->
  exists o1 o2,
    returns mixed_in mixed_out (dequantize_call_c cv cs A 1 oaddr DT_UINT8 DT_F32 tenth 0 RO_ADD 64 mixed_out) (Ok o1) /\
    returns mixed_in mixed_out (dequantize_call_c cv cs A 64 oaddr DT_UINT8 DT_F32 tenth 0 RO_ADD 64 mixed_out) (Ok o2) /\
    f32_at o1 0 <> f32_at o2 0.
Proof.
  intros Hc HA.
  destruct (returns_total mixed_in mixed_out (dequantize_call_c cv cs A 1 oaddr DT_UINT8 DT_F32 tenth 0 RO_ADD 64 mixed_out)) as [r1 R1].
  destruct (returns_total mixed_in mixed_out (dequantize_call_c cv cs A 64 oaddr DT_UINT8 DT_F32 tenth 0 RO_ADD 64 mixed_out)) as [r2 R2].
  assert (Fs : finite tenth) by reflexivity.
  assert (Hz : (Z.abs 0 <= 2 ^ 30)%Z) by (cbn; lia).
  destruct (C46_add_f32 _ _ _ _ _ _ _ _ _ _ _ _ (mixed_buffers 1 ltac:(lia)) Hz Fs R1) as (o1 & -> & _ & E1 & _).
  destruct (C46_add_f32 _ _ _ _ _ _ _ _ _ _ _ _ (mixed_buffers 64 ltac:(lia)) Hz Fs R2) as (o2 & -> & _ & E2 & _).
  exists o1, o2. split; auto. split; auto.
  assert (N : numel DT_F32 (length mixed_out) = 64) by (vm_compute; reflexivity). rewrite N in *.
  rewrite (E1 0), (E2 0) by (lia || discriminate).
  assert (P1 : dequant_vector_path A DT_UINT8 DT_F32 64 1 0 = true) by (destruct A; try congruence; vm_compute; reflexivity).
  assert (P2 : dequant_vector_path A DT_UINT8 DT_F32 64 64 0 = false) by (destruct A; vm_compute; reflexivity).
  rewrite P1, P2. intros E. apply (f_equal bits_of_f32) in E. clear -E Hc.
  destruct cv, cs; try congruence; vm_compute in E; discriminate.
Qed.
