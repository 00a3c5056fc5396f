(** DequantGenericFacts.v -- every dequantization kernel, and the fused kernel, stores exactly the elements
    described by the per-element functions below. *)
From Coq Require Import ZArith List Lia Bool Arith ZifyBool ZifyNat.
From Verif Require Import Base Floats Simd Dtypes Spec QuantKernels DequantKernels ExecFacts QuantFacts QuantKernelFacts QuantGenericFacts DequantFacts.
Import ListNotations.

Ltac Zify.zify_post_hook ::= Z.div_mod_to_equations.

(** Vector block size of a dequantization kernel; 0 = no vector loop. *)
Definition dq_block (A : arch) (din dout : dtype) : nat :=
  match din, dout, A with
  | _, _, GENERIC => 0
  | DT_UINT8, DT_F32, NEON => 16
  | DT_UINT8, DT_F32, _ => 64
  | DT_UINT4, DT_F32, SSE42 => 32
  | DT_UINT4, DT_F32, AVX2 => 64
  | DT_UINT4, DT_F32, (AVX512F | AVX512BF16) => 128
  | DT_UINT8, DT_BF16, (AVX512F | AVX512BF16) => 64
  | DT_UINT4, DT_BF16, (AVX512F | AVX512BF16) => 128
  | DT_UINT2, DT_BF16, (AVX512F | AVX512BF16) => 256
  | _, _, _ => 0
  end.
Definition vec_end (n numel : nat) : nat := n * (numel / n).

(** bytes stored by the vector loops for a code and the old bytes *)
Definition dq_el_vec (A : arch) (din dout : dtype) (op : reduce_op) (scale : f32) (zp : Z) : Z -> mem -> mem :=
  match dout, din with
  | DT_BF16, DT_UINT8 => el_bf16 A op (lane_mul scale (wrap32 zp))
  | DT_BF16, _ => el_bf16 A op (lane_fma scale (wrap32 zp))
  | _, _ => el_f32 op (lane_mul scale (wrap32 zp))
  end.
(** the float computed by the scalar loops *)
Definition dq_scalar (din dout : dtype) (scale : f32) (zp : Z) : Z -> res f32 :=
  match din, dout with
  | DT_UINT2, DT_BF16 => dq_sub scale (wrap32 zp)
  | DT_UINT2, _ => dq_i64 scale zp
  | _, _ => dq_i32 scale (wrap32 zp)
  end.
(** the reduce op that the scalar loops really apply to element [i] *)
Definition dq_op (din dout : dtype) (op : reduce_op) (numel i : nat) : reduce_op :=
  match din, dout with
  | DT_UINT2, DT_F32 => if i <? 4 * (numel / 4) then op else RO_SET
  | _, _ => op
  end.

Lemma St_pos_0 Q (f : nat -> nat) v st : v = 0 -> st = ([], 0) -> St (fun i => i = v) Q f st.
Proof. intros -> ->. apply St_nil. reflexivity. Qed.

Lemma lanes_mul_ok n scale zp : forall q, length q = n -> lanes_mul n scale zp q = map (lane_mul scale zp) q.
Proof. intros q H. apply lanes_mul_map; auto. Qed.
Lemma lanes_fma_ok n scale zp : forall q, length q = n -> lanes_fma n scale zp q = map (lane_fma scale zp) q.
Proof. intros q H. apply lanes_fma_map; auto. Qed.

Section Generic.
Variables (A : arch) (din dout : dtype) (op : reduce_op) (numel : nat) (scale : f32) (zp : Z).
Variables (inm outm : mem) (E : nat -> mem).
Let e := esize dout.
Notation code i := (code_at din inm i).
Notation old i := (slice (e * i) e outm).
Notation v := (vec_end (dq_block A din dout) numel).
Hypothesis Hq : is_q din.
Hypothesis Hfp : is_fp dout.
Hypothesis Hbytes : Forall is_byte inm.
Hypothesis Hin : bytes_for din numel <= length inm.
Hypothesis Hextra : din = DT_UINT2 -> dout = DT_F32 -> numel / 4 < length inm.
Hypothesis Hout : e * numel <= length outm.
Hypothesis HE : forall i, i < numel -> length (E i) = e.
Hypothesis HEv : forall i, i < v -> i < numel -> E i = dq_el_vec A din dout op scale zp (code i) (old i).
Hypothesis HEs : forall i, v <= i < numel ->
  step_put (dq_scalar din dout scale zp) (put dout (dq_op din dout op numel i)) (code i) (old i) = Ok (E i).

Lemma v_le : v <= numel.
Proof.
  unfold vec_end. destruct (Nat.eq_dec (dq_block A din dout) 0) as [->|H]; [lia|].
  apply Nat.mul_div_le. auto.
Qed.

Theorem dequant_generic_ok : kernelE_ok inm outm e numel E (dequant_generic A din dout op numel scale zp).
Proof.
  pose proof v_le as Hv.
  assert (He : e = 4 \/ e = 2) by (unfold e; destruct Hfp as [->| ->]; cbn; auto).
  assert (HEv' : forall i, i < v -> E i = dq_el_vec A din dout op scale zp (code i) (old i)) by (intros; apply HEv; lia).
  assert (VL : forall n ilen ln regs g ioff,
     n = dq_block A din dout -> n > 0 -> n = per_byte din * ilen -> regs_ok din ilen ln regs -> ln > 0 ->
     el_ok e (dq_el_vec A din dout op scale zp) g ln -> (forall i, i mod per_byte din = 0 -> per_byte din * ioff i = i) ->
     St (fun i => i = v) (act_ok inm outm (byteE e E)) (fun i => e * i)
       (run_loop numel ([], 0) (blk_cond numel n, n, dact_block e ilen n ioff (fun b o => emit (e * ln) g (regs b) o)))).
  { intros n ilen ln regs g ioff Hn Hn0 Hnp Hr Hln Hg Hio. unfold vec_end. rewrite <- Hn.
    eapply vec_loop; eauto. rewrite Hn. exact HEv'. }
  assert (I1 : forall i, i mod 1 = 0 -> 1 * id_idx i = i) by (intros; unfold id_idx; lia).
  assert (I2 : forall i, i mod 2 = 0 -> 2 * half_idx i = i) by (intros; unfold half_idx; rewrite div2_half; lia).
  assert (I4 : forall i, i mod 4 = 0 -> 4 * quarter_idx i = i) by (intros; rewrite quarter_div; lia).
  unfold e in *. clear e.
  destruct Hq as [Ei|[Ei|Ei]], Hfp as [Eo|Eo]; subst din dout; cbn [esize stride per_byte dequant_generic] in *.
  - (* u2 -> f32 *)
    unfold dequant_uint2_f32, seq_loops. cbn [fold_left].
    assert (Hv0 : (vec_end (dq_block A DT_UINT2 DT_F32) numel) = 0) by (destruct A; reflexivity).
    assert (S2 : St (fun i => i = 4 * (numel / 4)) (act_ok inm outm (byteE 4 E)) (fun i => 4 * i)
       (run_loop numel ([], 0) (blk_cond numel 4, 4, dact_u2 4 (dq_i64 scale zp) (put_f32 op) 4))).
    { eapply (u2_quads inm outm DT_UINT2 4 numel) with (v := 0); auto.
      - lia.
      - apply St_nil. reflexivity.
      - intros i Hi. rewrite <- HEs.
        + cbn [dq_scalar put dq_op]. destruct (Nat.ltb_spec i (4 * (numel / 4))); [reflexivity|lia].
        + rewrite Hv0. clear -Hi. lia. }
    remember (run_loop numel ([], 0) (blk_cond numel 4, 4, dact_u2 4 (dq_i64 scale zp) (put_f32 op) 4)) as st.
    destruct S2 as (P1 & P2 & P3). split.
    + eapply tiles_app; [exact P3|]. unfold dact_u2. constructor; cbn [a_ooff a_olen]; auto.
      replace (4 * snd st + 4 * (numel mod 4)) with (4 * numel) by lia. constructor.
    + apply Forall_app. split; auto. constructor; [|constructor]. rewrite P1.
      apply (dact_u2_ok inm outm DT_UINT2 4 numel); auto; try lia.
      intros j Hj. rewrite <- HEs.
      * cbn [dq_scalar put dq_op]. destruct (Nat.ltb_spec j (4 * (numel / 4))); [lia|reflexivity].
      * rewrite Hv0. clear -Hj. lia.
  - (* u2 -> bf16 *)
    unfold dequant_uint2_to_bf16, seq_loops. rewrite fold_left_app. cbn [fold_left].
    match goal with |- context [run_loop numel ?s (blk_cond numel 4, _, _)] => set (st0 := s) end.
    assert (S0 : St (fun i => i = (vec_end (dq_block A DT_UINT2 DT_BF16) numel)) (act_ok inm outm (byteE 2 E)) (fun i => 2 * i) st0).
    { subst st0. destruct A; cbn [fold_left]; try (apply St_nil; reflexivity);
        apply (VL 256 64 16 regs_u2_avx512); auto; try lia; try apply regs_u2_avx512_ok;
        apply reg_bf16_ok, lanes_fma_ok. }
    assert (Hv4 : (vec_end (dq_block A DT_UINT2 DT_BF16) numel) mod 4 = 0) by (clear; destruct A; unfold vec_end; cbn [dq_block]; lia).
    assert (S2 : St (fun i => i = 4 * (numel / 4)) (act_ok inm outm (byteE 2 E)) (fun i => 2 * i)
       (run_loop numel st0 (blk_cond numel 4, 4, dact_u2 2 (dq_sub scale (wrap32 zp)) (put_bf16 op) 4))).
    { eapply (u2_quads inm outm DT_UINT2 2 numel) with (v := (vec_end (dq_block A DT_UINT2 DT_BF16) numel)); auto.
      intros i Hi. rewrite <- HEs; [reflexivity|lia]. }
    remember (run_loop numel st0 (blk_cond numel 4, 4, dact_u2 2 (dq_sub scale (wrap32 zp)) (put_bf16 op) 4)) as st.
    destruct S2 as (P1 & P2 & P3). rewrite P1 in P3 |- *. rewrite bytes_for_u2 in Hin.
    destruct (Nat.ltb_spec (4 * (numel / 4)) numel) as [Hlt|Hge]; split.
    + eapply tiles_app; [exact P3|]. unfold dact_u2. constructor; cbn [a_ooff a_olen]; auto.
      replace (2 * (4 * (numel / 4)) + 2 * (numel - 4 * (numel / 4))) with (2 * numel) by lia. constructor.
    + apply Forall_app. split; auto. constructor; [|constructor].
      apply (dact_u2_ok inm outm DT_UINT2 2 numel); auto; try lia.
      { rewrite bytes_for_u2. auto. }
      intros j Hj. rewrite <- HEs; [reflexivity|].
      assert ((vec_end (dq_block A DT_UINT2 DT_BF16) numel) <= 4 * (numel / 4)) by (clear -Hv Hv4; lia). lia.
    + rewrite app_nil_r. replace (2 * numel) with (2 * (4 * (numel / 4))) by lia. exact P3.
    + rewrite app_nil_r. auto.
  - (* u4 -> f32 *)
    unfold dequant_uint4_to_f32, seq_loops. rewrite fold_left_app. cbn [fold_left].
    apply (u4_scalar inm outm DT_UINT4 4 numel) with (v := (vec_end (dq_block A DT_UINT4 DT_F32) numel)); auto.
    { clear; destruct A; unfold vec_end; cbn [dq_block]; lia. }
    destruct A; cbn [fold_left]; try (apply St_nil; reflexivity).
    + apply (VL 32 16 4 regs_u4_sse); auto; try lia; [apply regs_u4_sse_ok|apply reg_f32_ok, lanes_mul_ok].
    + apply (VL 64 32 8 regs_u4_avx2); auto; try lia; [apply regs_u4_avx2_ok|apply reg_f32_ok, lanes_mul_ok].
    + apply (VL 128 64 16 regs_u4_avx512); auto; try lia; [apply regs_u4_avx512_ok|apply reg_f32_ok, lanes_mul_ok].
    + apply (VL 128 64 16 regs_u4_avx512); auto; try lia; [apply regs_u4_avx512_ok|apply reg_f32_ok, lanes_mul_ok].
  - (* u4 -> bf16 *)
    unfold dequant_uint4_to_bf16, seq_loops. rewrite fold_left_app. cbn [fold_left].
    apply (u4_scalar inm outm DT_UINT4 2 numel) with (v := (vec_end (dq_block A DT_UINT4 DT_BF16) numel)); auto.
    { clear; destruct A; unfold vec_end; cbn [dq_block]; lia. }
    destruct A; cbn [fold_left]; try (apply St_nil; reflexivity);
      apply (VL 128 64 16 regs_u4_avx512); auto; try lia; try apply regs_u4_avx512_ok;
      apply reg_bf16_ok, lanes_fma_ok.
  - (* u8 -> f32 *)
    unfold dequant_uint8_to_f32, seq_loops. rewrite fold_left_app. cbn [fold_left].
    apply (u8_scalar inm outm DT_UINT8 4 numel) with (v := (vec_end (dq_block A DT_UINT8 DT_F32) numel)); auto.
    destruct A; cbn [fold_left]; try (apply St_nil; reflexivity).
    + apply (VL 64 64 4 regs_u8_sse); auto; try lia; [apply regs_u8_sse_ok|apply reg_f32_ok, lanes_mul_ok].
    + apply (VL 64 64 8 regs_u8_avx2); auto; try lia; [apply regs_u8_avx2_ok|apply reg_f32_ok, lanes_mul_ok].
    + apply (VL 64 64 16 regs_u8_avx512); auto; try lia; [apply regs_u8_avx512_ok|apply reg_f32_ok, lanes_mul_ok].
    + apply (VL 64 64 16 regs_u8_avx512); auto; try lia; [apply regs_u8_avx512_ok|apply reg_f32_ok, lanes_mul_ok].
    + apply (VL 16 16 4 regs_u8_neon); auto; try lia; [apply regs_u8_neon_ok|apply reg_f32_ok, lanes_mul_ok].
  - (* u8 -> bf16 *)
    unfold dequant_uint8_to_bf16, seq_loops. rewrite fold_left_app. cbn [fold_left].
    apply (u8_scalar inm outm DT_UINT8 2 numel) with (v := (vec_end (dq_block A DT_UINT8 DT_BF16) numel)); auto.
    destruct A; cbn [fold_left]; try (apply St_nil; reflexivity);
      apply (VL 64 64 16 regs_u8_avx512); auto; try lia; try apply regs_u8_avx512_ok;
      apply reg_bf16_ok, lanes_mul_ok.
Qed.
End Generic.

(** ** The fused kernel *)
Theorem requant_generic_ok (d dq : dtype) rm op numel scale thr zp inm outm E :
  is_fp d -> esize d * numel <= length inm -> esize d * numel <= length outm ->
  (forall i, i < numel -> length (E i) = esize d) ->
  (forall i, i < numel -> requant_elem d dq rm op scale thr zp (slice (esize d * i) (esize d) inm) (slice (esize d * i) (esize d) outm) = Ok (E i)) ->
  kernelE_ok inm outm (esize d) numel E (requant_generic d dq rm op numel scale thr zp).
Proof.
  intros Hfp Hin Hout HL HE.
  assert (He : esize d > 0) by (destruct Hfp as [->| ->]; cbn; lia).
  unfold requant_generic, seq_loops. cbn [fold_left].
  destruct (run_loop_St (fun i => i <= numel) (act_ok inm outm (byteE (esize d) E)) (fun i => esize d * i) numel ([], 0)
     (blk_cond numel 1) 1 (ract d dq rm op scale thr zp)) as [H1 H2].
  - apply St_nil. lia.
  - intros i Hi Hc. unfold blk_cond in Hc. apply Nat.ltb_lt in Hc. cbn [Nat.sub] in Hc. rewrite Nat.add_0_r in Hc. split; [lia|].
    split; [|unfold ract; cbn [a_ooff a_olen]; split; [reflexivity|lia]].
    unfold ract. remember (esize d) as e. 
    assert (Hx : requant_elem d dq rm op scale thr zp (slice (e * i) e inm) (slice (e * i) (e * 1) outm) = Ok (flat_map E (seq i 1))).
    { cbn [seq flat_map]. rewrite app_nil_r, Nat.mul_1_r. apply HE. auto. }
    assert (Q : act_ok inm outm (byteE e E) (mk_action (e * i) e (e * i) (e * 1) (requant_elem d dq rm op scale thr zp))).
    { apply elem_act_ok; auto; try nia. intros j Hj. apply HL. lia. }
    rewrite Nat.mul_1_r in Q. exact Q.
  - lia.
  - intros; apply blk_cond_ge; auto.
  - destruct H1 as (H3 & H4 & H5). apply blk_cond_false in H2. cbn [Nat.sub] in H2. split; auto.
    rewrite Nat.mul_0_r in H5.
    match type of H5 with tiles _ (_ * ?s) _ => replace s with numel in H5 by lia end. exact H5.
Qed.
