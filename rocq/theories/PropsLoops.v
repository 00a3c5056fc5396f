(** PropsLoops.v -- C40: every loop of every kernel stops, after finitely many iterations that each make progress, and the loops
    together with at most one tail step cover all elements. *)
From Coq Require Import ZArith List Lia Bool Arith ZifyBool ZifyNat.
From Verif Require Import Base Floats Simd Dtypes Spec ApiSpec QuantKernels DequantKernels ExecFacts QuantKernelFacts LoopFacts.
Import ListNotations.

Local Ltac dif := match goal with |- context [?a =? 0] => destruct (a =? 0) end.
Notation cloop := ((nat -> bool) * nat * (nat -> action))%type.

(** ** The loops of the quantization kernels, in program order
    (kernels_specialized.inl:35-727, quantize.inl:52-148). *)
Definition quant_loops (A : arch) (din dout : dtype) (rm : round_mode_t) (oaddr : Z) (numel : nat) (scale thr : f32) (zp : Z) : list cloop :=
  let inv := fdiv f_one scale in
  let z := wrap32 zp in
  let blk n body : cloop := (blk_cond numel n, n, body) in
  let peel mask q : cloop := (peel_cond oaddr mask numel, 1%nat, act_u8 din q) in
  let vector : list cloop :=
    match din, dout, rm with
    | DT_F32, DT_UINT8, RM_NEAREST =>
        let q := q_nearest_i32 255 inv z in
        match A with
        | AVX512F | AVX512BF16 => [ peel 15%Z q; blk 64%nat (act_block_stream oaddr 16 DT_F32 64 64 (blk_f32_u8_avx512 inv z)) ]
        | AVX2 => [ peel 31%Z q; blk 32%nat (act_block_stream oaddr 32 DT_F32 32 32 (blk_f32_u8_avx2 inv z)) ]
        | SSE42 => [ peel 15%Z q; blk 16%nat (act_block_stream oaddr 16 DT_F32 16 16 (blk_f32_u8_sse inv z)) ]
        | NEON => [ blk 16%nat (act_block DT_F32 16 16 id_idx (blk_f32_u8_neon inv z)) ]
        | GENERIC => []
        end
    | DT_BF16, DT_UINT8, RM_NEAREST =>
        let q := q_nearest_i32 255 inv z in
        match A with
        | AVX512F | AVX512BF16 => [ blk 64%nat (act_block DT_BF16 64 64 id_idx (blk_bf16_u8_avx512 inv z)) ]
        | AVX2 => [ peel 31%Z q; blk 32%nat (act_block_stream oaddr 32 DT_BF16 32 32 (blk_bf16_u8_avx2 inv z)) ]
        | SSE42 => [ peel 15%Z q; blk 32%nat (act_block DT_BF16 32 32 id_idx (blk_bf16_u8_sse inv z)) ]
        | NEON | GENERIC => []
        end
    | DT_F32, DT_UINT4, RM_NEAREST =>
        match A with
        | AVX512F | AVX512BF16 => [ blk 16%nat (act_block DT_F32 16 8 half_idx (blk_f32_u4_avx512 inv z)) ]
        | AVX2 => [ blk 16%nat (act_block DT_F32 16 8 half_idx (blk_f32_u4_avx2 inv z)) ]
        | SSE42 => [ blk 16%nat (act_block DT_F32 16 8 half_idx (blk_f32_u4_sse inv z)) ]
        | NEON | GENERIC => []
        end
    | DT_BF16, DT_UINT4, RM_NEAREST =>
        match A with
        | AVX512F | AVX512BF16 => [ blk 16%nat (act_block DT_BF16 16 8 half_idx (blk_bf16_u4_avx512 inv z)) ]
        | AVX2 => [ blk 16%nat (act_block DT_BF16 16 8 half_idx (blk_bf16_u4_avx2 inv z)) ]
        | SSE42 => [ blk 32%nat (act_block DT_BF16 32 16 half_idx (blk_bf16_u4_sse inv z)) ]
        | NEON | GENERIC => []
        end
    | DT_BF16, DT_UINT2, RM_NEAREST =>
        match A with
        | AVX512F | AVX512BF16 => [ blk 16%nat (act_block DT_BF16 16 4 quarter_idx (blk_bf16_u2_avx512 inv z)) ]
        | _ => []
        end
    | _, _, _ => []
    end in
  let q := match din, dout, rm with
    | DT_F32, (DT_UINT8 | DT_UINT4), RM_NEAREST | DT_BF16, (DT_UINT8 | DT_UINT4 | DT_UINT2), RM_NEAREST => q_nearest_i32 (limit_max dout) inv z
    | _, _, _ => quant_step_scalar rm (limit_max dout) thr inv zp
    end in
  vector ++ match dout with
            | DT_UINT4 => [ blk 2%nat (act_u4_pair din q) ]
            | DT_UINT2 => [ blk 4%nat (act_u2_quad din q) ]
            | _ => [ blk 1%nat (act_u8 din q) ]
            end.

(** ** The loops of the dequantization kernels (kernels_specialized.inl:729-1416, dequantize.inl:43-87). *)
Definition dequant_loops (A : arch) (din dout : dtype) (op : reduce_op) (numel : nat) (scale : f32) (zp : Z) : list cloop :=
  let z := wrap32 zp in
  let f32v n ln hn idx regs : cloop := (blk_cond numel n, n, dact_block 4 hn n idx (fun b o => emit (4 * ln) (reg_f32 op (lanes_mul ln scale z)) (regs b) o)) in
  let bf16v n hn idx lanes regs : cloop := (blk_cond numel n, n, dact_block 2 hn n idx (fun b o => emit 32 (reg_bf16 A op lanes) (regs b) o)) in
  let blk n body : cloop := (blk_cond numel n, n, body) in
  match din, dout with
  | DT_UINT8, DT_F32 =>
      match A with
      | AVX512F | AVX512BF16 => [ f32v 64 16 64 id_idx regs_u8_avx512 ]
      | AVX2 => [ f32v 64 8 64 id_idx regs_u8_avx2 ]
      | SSE42 => [ f32v 64 4 64 id_idx regs_u8_sse ]
      | NEON => [ f32v 16 4 16 id_idx regs_u8_neon ]
      | GENERIC => []
      end%nat ++ [ blk 1%nat (dact_u8 4 (dq_i32 scale z) (put_f32 op)) ]
  | DT_UINT4, DT_F32 =>
      match A with
      | AVX512F | AVX512BF16 => [ f32v 128 16 64 half_idx regs_u4_avx512 ]
      | AVX2 => [ f32v 64 8 32 half_idx regs_u4_avx2 ]
      | SSE42 => [ f32v 32 4 16 half_idx regs_u4_sse ]
      | NEON | GENERIC => []
      end%nat ++ [ blk 2%nat (dact_u4_pair 4 (dq_i32 scale z) (put_f32 op)) ]
  | DT_UINT8, DT_BF16 =>
      match A with
      | AVX512F | AVX512BF16 => [ bf16v 64%nat 64%nat id_idx (lanes_mul 16 scale z) regs_u8_avx512 ]
      | _ => []
      end ++ [ blk 1%nat (dact_u8 2 (dq_i32 scale z) (put_bf16 op)) ]
  | DT_UINT4, DT_BF16 =>
      match A with
      | AVX512F | AVX512BF16 => [ bf16v 128%nat 64%nat half_idx (lanes_fma 16 scale z) regs_u4_avx512 ]
      | _ => []
      end ++ [ blk 2%nat (dact_u4_pair 2 (dq_i32 scale z) (put_bf16 op)) ]
  | DT_UINT2, DT_BF16 =>
      match A with
      | AVX512F | AVX512BF16 => [ bf16v 256%nat 64%nat quarter_idx (lanes_fma 16 scale z) regs_u2_avx512 ]
      | _ => []
      end ++ [ blk 4%nat (dact_u2 2 (dq_sub scale z) (put_bf16 op) 4) ]
  | DT_UINT2, DT_F32 => [ blk 4%nat (dact_u2 4 (dq_i64 scale zp) (put_f32 op) 4) ]
  | _, _ => []
  end.

(** Where the loops stop: the largest multiple of the packing factor. *)
Lemma blk_end_0 k n : k >= 1 -> blk_end 0 k n = n - n mod k.
Proof. intros H. unfold blk_end. rewrite Nat.sub_0_r. assert (Hk : k <> 0) by lia. pose proof (Nat.div_mod n k Hk). cbn [Nat.add]. set (a := k * (n / k)) in *. clearbody a. lia. Qed.
Lemma blk_end_blk k m n : k >= 1 -> m >= 1 -> m mod k = 0 -> blk_end (blk_end 0 m n) k n = n - n mod k.
Proof.
  intros Hk Hm Hd. unfold blk_end. rewrite Nat.sub_0_r, Nat.add_0_l.
  apply Nat.mod_divides in Hd; [|lia]. destruct Hd as [c ->].
  assert (Hkc : k * c <> 0) by lia. assert (Hk0 : k <> 0) by lia.
  pose proof (Nat.div_mod n (k * c) Hkc) as D. set (q := n / (k * c)) in *.
  pose proof (Nat.mod_upper_bound n (k * c) Hkc). set (r := n mod (k * c)) in *. clearbody q r.
  replace (n - k * c * q) with r by lia.
  assert (n mod k = r mod k).
  { rewrite D. replace (k * c * q + r) with (r + c * q * k) by lia. apply Nat.mod_add. lia. }
  pose proof (Nat.div_mod r k Hk0) as D2. rewrite H0. set (a := k * (r / k)) in *. set (b := k * c * q) in *. clearbody a b. lia.
Qed.
Lemma blk_end_1 p n : p <= n -> blk_end p 1 n = n.
Proof. intros H. unfold blk_end. rewrite Nat.div_1_r. lia. Qed.

Lemma good_loops_quant A din dout rm oaddr n scale thr zp : Forall (good_loop n) (quant_loops A din dout rm oaddr n scale thr zp).
Proof.
  unfold quant_loops. destruct din, dout, rm, A; cbn [app]; repeat constructor; cbn [fst snd]; auto with arith;
    intros j Hj; unfold blk_cond, peel_cond; try (apply Nat.ltb_ge; lia); apply andb_false_iff; left; apply Nat.ltb_ge; lia.
Qed.
Lemma good_loops_dequant A din dout op n scale zp : Forall (good_loop n) (dequant_loops A din dout op n scale zp).
Proof.
  unfold dequant_loops. destruct din, dout, A; cbn [app]; repeat constructor; cbn [fst snd]; auto with arith;
    try (intros j Hj; unfold blk_cond; apply Nat.ltb_ge; lia); lia.
Qed.

Lemma c_seq_length ls n i l j : Forall (good_loop n) ls -> c_seq ls i l j -> i + length l <= j.
Proof.
  intros H HS. induction HS as [|cond stride body ls i l j l' k HL HS IH]; [cbn; lia|].
  inversion H as [|? ? [H1 H2] H3]; subst. specialize (IH H3). apply c_loop_length in HL; auto. rewrite app_length. lia.
Qed.

(** C40, quantize: the loops of the kernel, executed in order without any bound on the number of iterations, stop; the run is unique; the index
    ends at the largest multiple of the number of codes per byte; there are at most as many iterations as elements; and
    the kernel is exactly these iterations followed by one tail step if some elements are left. *)
Theorem C40_quantize_loops A din dout rm oaddr n scale thr zp : float_type din -> quant_type dout ->
  exists acts i tail,
    c_seq (quant_loops A din dout rm oaddr n scale thr zp) 0 acts i /\
    (forall acts' i', c_seq (quant_loops A din dout rm oaddr n scale thr zp) 0 acts' i' -> acts' = acts /\ i' = i) /\
    i = n - n mod codes_per_byte dout /\ length acts <= n /\
    quant_generic A din dout rm oaddr n scale thr zp = acts ++ tail /\
    length tail = (if n mod codes_per_byte dout =? 0 then 0 else 1).
Proof.
  intros Hfp Hq. pose proof (good_loops_quant A din dout rm oaddr n scale thr zp) as G.
  pose proof (seq_loops_c_seq _ _ G) as HS.
  assert (Hi : snd (seq_loops n (quant_loops A din dout rm oaddr n scale thr zp)) = n - n mod codes_per_byte dout).
  { clear HS G. unfold seq_loops, quant_loops. pose proof (peel_len_le oaddr 16 n) as P16. pose proof (peel_len_le oaddr 32 n) as P32.
    destruct Hfp as [->| ->], Hq as [->|[->| ->]]; unfold codes_per_byte; cbn [bit_size];
      change (8 / 2) with 4; change (8 / 4) with 2; change (8 / 8) with 1; destruct rm, A; cbn [app fold_left];
      rewrite ?(run_loop_peel n oaddr 15 16 _ _ eq_refl mask15), ?(run_loop_peel n oaddr 31 32 _ _ eq_refl mask31);
      rewrite ?run_loop_blk by (try apply blk_end_le; lia); rewrite ?run_loop_blk by (try apply blk_end_le; lia); cbn [snd];
      rewrite ?blk_end_1 by (try apply blk_end_le; lia); rewrite ?Nat.mod_1_r; try lia;
      first [apply blk_end_0; lia | apply blk_end_blk; lia || reflexivity]. }
  set (st := seq_loops n (quant_loops A din dout rm oaddr n scale thr zp)) in *.
  assert (HT : exists tail, quant_generic A din dout rm oaddr n scale thr zp = fst st ++ tail /\
     length tail = (if n mod codes_per_byte dout =? 0 then 0 else 1)).
  { assert (O2 : Nat.odd n = negb (n mod 2 =? 0)).
    { rewrite <- Nat.bit0_odd, Nat.bit0_eqb. pose proof (Nat.mod_upper_bound n 2). destruct (n mod 2) as [|[|]]; auto; lia. }
    unfold st, quant_generic, quant_loops.
    destruct Hfp as [->| ->], Hq as [->|[->| ->]]; unfold codes_per_byte; cbn [bit_size];
      change (8 / 2) with 4; change (8 / 4) with 2; change (8 / 8) with 1; rewrite ?Nat.mod_1_r; destruct rm;
      unfold quant_uint2, quant_uint4, quant_plain, quant_f32_to_uint4_nearest, quant_bf16_to_uint4_nearest, quant_bf16_to_uint2_nearest,
        quant_f32_to_uint8_nearest, quant_bf16_to_uint8_nearest, u4_finish, u2_finish; rewrite ?O2;
      cbn [limit_max app];
      try (exists []; rewrite app_nil_r; split; reflexivity);
      eexists; (split; [reflexivity|]); dif; reflexivity. }
  destruct HT as (tail & E & HL). exists (fst st), (snd st), tail.
  repeat split; auto.
  - eapply c_seq_det in HS; [|eassumption]. tauto.
  - eapply c_seq_det in HS; [|eassumption]. tauto.
  - apply (c_seq_length _ n) in HS; auto. lia.
Qed.

(** C40, dequantize (the uint2 to f32 kernel always executes its tail step, also when nothing is left: see C09). *)
Theorem C40_dequantize_loops A din dout op n scale zp : quant_type din -> float_type dout ->
  exists acts i tail,
    c_seq (dequant_loops A din dout op n scale zp) 0 acts i /\
    (forall acts' i', c_seq (dequant_loops A din dout op n scale zp) 0 acts' i' -> acts' = acts /\ i' = i) /\
    i = n - n mod codes_per_byte din /\ length acts <= n /\
    dequant_generic A din dout op n scale zp = acts ++ tail /\
    length tail = (if n mod codes_per_byte din =? 0 then (match din, dout with DT_UINT2, DT_F32 => 1 | _, _ => 0 end) else 1).
Proof.
  intros Hq Hfp. pose proof (good_loops_dequant A din dout op n scale zp) as G.
  pose proof (seq_loops_c_seq _ _ G) as HS.
  assert (Hi : snd (seq_loops n (dequant_loops A din dout op n scale zp)) = n - n mod codes_per_byte din).
  { clear HS G. unfold seq_loops, dequant_loops.
    destruct Hq as [->|[->| ->]], Hfp as [->| ->]; unfold codes_per_byte; cbn [bit_size];
      change (8 / 2) with 4; change (8 / 4) with 2; change (8 / 8) with 1; destruct A; cbn [app fold_left];
      rewrite ?run_loop_blk by (try apply blk_end_le; lia); rewrite ?run_loop_blk by (try apply blk_end_le; lia); cbn [snd];
      rewrite ?blk_end_1 by (try apply blk_end_le; lia); rewrite ?Nat.mod_1_r; try lia;
      first [apply blk_end_0; lia | apply blk_end_blk; lia || reflexivity]. }
  set (st := seq_loops n (dequant_loops A din dout op n scale zp)) in *.
  assert (HT : exists tail, dequant_generic A din dout op n scale zp = fst st ++ tail /\
     length tail = (if n mod codes_per_byte din =? 0 then (match din, dout with DT_UINT2, DT_F32 => 1 | _, _ => 0 end) else 1)).
  { assert (O2 : Nat.odd n = negb (n mod 2 =? 0)).
    { rewrite <- Nat.bit0_odd, Nat.bit0_eqb. pose proof (Nat.mod_upper_bound n 2). destruct (n mod 2) as [|[|]]; auto; lia. }
    assert (O4 : (n - n mod 4 <? n) = negb (n mod 4 =? 0)).
    { pose proof (Nat.mod_le n 4). destruct (Nat.eqb_spec (n mod 4) 0); cbn [negb]; [apply Nat.ltb_ge; lia|apply Nat.ltb_lt; lia]. }
    destruct Hq as [->|[->| ->]], Hfp as [->| ->]; unfold codes_per_byte in *; cbn [bit_size] in *;
      change (8 / 2) with 4 in *; change (8 / 4) with 2 in *; change (8 / 8) with 1 in *; rewrite ?Nat.mod_1_r;
      cbn [dequant_generic]; unfold dequant_uint8_to_f32, dequant_uint8_to_bf16, dequant_uint4_to_f32, dequant_uint4_to_bf16, dequant_uint2_to_bf16, dequant_uint2_f32, du4_finish;
      try (exists []; rewrite app_nil_r; split; reflexivity).
    - eexists. split; [reflexivity|]. dif; reflexivity.
    - exists (if n mod 4 =? 0 then [] else [dact_u2 2 (dq_sub scale (wrap32 zp)) (put_bf16 op) (n - snd st) (snd st)]).
      split; [|dif; reflexivity].
      change (seq_loops n (_ ++ _)) with st. rewrite Hi at 1. rewrite O4. dif; reflexivity.
    - eexists. split; [reflexivity|]. rewrite O2. dif; reflexivity.
    - eexists. split; [reflexivity|]. rewrite O2. dif; reflexivity. }
  destruct HT as (tail & E & HL). exists (fst st), (snd st), tail.
  repeat split; auto.
  - eapply c_seq_det in HS; [|eassumption]. tauto.
  - eapply c_seq_det in HS; [|eassumption]. tauto.
  - apply (c_seq_length _ n) in HS; auto. lia.
Qed.

(** C40, fused call: a single loop over all elements. *)
Theorem C40_fused_loop d dq rm op n scale thr zp :
  c_seq [ (blk_cond n 1, 1, ract d dq rm op scale thr zp) ] 0 (requant_generic d dq rm op n scale thr zp) n /\
  requant_generic d dq rm op n scale thr zp = map (ract d dq rm op scale thr zp) (seq 0 n).
Proof.
  assert (E : seq_loops n [ (blk_cond n 1, 1, ract d dq rm op scale thr zp) ] = (map (ract d dq rm op scale thr zp) (seq 0 n), n)).
  { unfold seq_loops. cbn [fold_left]. rewrite run_loop_blk by lia. rewrite blk_end_1 by lia. rewrite Nat.sub_0_r, Nat.div_1_r.
    f_equal. cbn [app]. apply map_ext. intros k. f_equal. lia. }
  unfold requant_generic. split; [|rewrite E; reflexivity].
  assert (H : Forall (good_loop n) [ (blk_cond n 1, 1, ract d dq rm op scale thr zp) ]) by (constructor; [apply good_blk; lia|constructor]).
  apply seq_loops_c_seq in H. rewrite E in H at 2. exact H.
Qed.
