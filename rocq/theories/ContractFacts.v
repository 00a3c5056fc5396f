(** ContractFacts.v -- the contracted kernels store the elements described below; the calls reduced to their job lists. *)
From Coq Require Import ZArith List Lia Bool Arith ZifyBool ZifyNat FunctionalExtensionality.
From Verif Require Import Base Floats Simd Dtypes Spec ApiSpec QuantKernels DequantKernels ExecFacts QuantFacts QuantKernelFacts QuantGenericFacts DequantFacts
  DequantGenericFacts Context ContextFacts QuantizeFacts DequantizeFacts Api Contract.
Import ListNotations.

Ltac Zify.zify_post_hook ::= Z.div_mod_to_equations.

(** ** No contraction: the kernels of DequantKernels.v *)
Lemma step_put_c zp scale op : step_put (diff_i32 zp) (put_f32_c false op scale) = step_put (dq_i32 scale zp) (put_f32 op).
Proof.
  extensionality q. extensionality o. unfold step_put, diff_i32, dq_i32. destruct (i32 (q - zp)); cbn [bind]; auto.
Qed.
Lemma step_put_c64 zp scale op : step_put (diff_i64 zp) (put_f32_c false op scale) = step_put (dq_i64 scale zp) (put_f32 op).
Proof.
  extensionality q. extensionality o. unfold step_put, diff_i64, dq_i64. destruct (i64 (q - zp)); cbn [bind]; auto.
Qed.
Lemma put_set_c cs scale : put_f32_c cs RO_SET scale = put_f32_c false RO_SET scale.
Proof. reflexivity. Qed.

Lemma dact_u8_c e s1 p1 s2 p2 : step_put s1 p1 = step_put s2 p2 -> dact_u8 e s1 p1 = dact_u8 e s2 p2.
Proof. intros H. unfold dact_u8. rewrite H. reflexivity. Qed.
Lemma dact_u4_pair_c e s1 p1 s2 p2 : step_put s1 p1 = step_put s2 p2 -> dact_u4_pair e s1 p1 = dact_u4_pair e s2 p2.
Proof. intros H. unfold dact_u4_pair. rewrite H. reflexivity. Qed.
Lemma dact_u4_odd_c e s1 p1 s2 p2 : step_put s1 p1 = step_put s2 p2 -> dact_u4_odd e s1 p1 = dact_u4_odd e s2 p2.
Proof. intros H. unfold dact_u4_odd. rewrite H. reflexivity. Qed.
Lemma u2_elems_c e s1 p1 s2 p2 : step_put s1 p1 = step_put s2 p2 -> u2_elems e s1 p1 = u2_elems e s2 p2.
Proof.
  intros H. extensionality p. extensionality k. extensionality n. revert k. induction n as [|n IH]; intros k; extensionality o; [reflexivity|].
  cbn [u2_elems]. rewrite H, IH. reflexivity.
Qed.
Lemma dact_u2_c e s1 p1 s2 p2 : step_put s1 p1 = step_put s2 p2 -> dact_u2 e s1 p1 = dact_u2 e s2 p2.
Proof. intros H. unfold dact_u2. rewrite (u2_elems_c e s1 p1 s2 p2 H). reflexivity. Qed.
Lemma du4_finish_c e s1 p1 s2 p2 : step_put s1 p1 = step_put s2 p2 -> du4_finish e s1 p1 = du4_finish e s2 p2.
Proof. intros H. unfold du4_finish. rewrite (dact_u4_odd_c e s1 p1 s2 p2 H). reflexivity. Qed.

(** SET stores contract nothing; ADD stores of a compiler that contracts nothing are the source's *)
Definition inert (cv cs : bool) (op : reduce_op) : Prop := op = RO_SET \/ cv = false /\ cs = false.
Lemma inert_put cv cs op scale : inert cv cs op -> put_f32_c cs op scale = put_f32_c false op scale.
Proof. intros [->|[-> ->]]; reflexivity. Qed.
Lemma inert_reg cv cs op n scale zp : inert cv cs op -> reg_f32_c cv op n scale zp = reg_f32 op (lanes_mul n scale zp).
Proof. intros [->|[-> ->]]; reflexivity. Qed.
Lemma inert_reg_bf16 A cv cs op n scale zp : inert cv cs op -> reg_bf16_c A cv op n scale zp = reg_bf16 A op (lanes_mul n scale zp).
Proof. intros [->|[-> ->]]; reflexivity. Qed.

Lemma dequant_generic_inert cv cs A din dout op numel scale zp : inert cv cs op ->
  dequant_generic_c cv cs A din dout op numel scale zp = dequant_generic A din dout op numel scale zp.
Proof.
  intros H. destruct din, dout; try reflexivity; cbn [dequant_generic_c dequant_generic].
  - (* u2 -> f32 *) unfold dequant_uint2_f32_c, dequant_uint2_f32. rewrite (inert_put cv cs op) by auto.
    rewrite (dact_u2_c _ _ _ _ _ (step_put_c64 zp scale op)), put_set_c, (dact_u2_c _ _ _ _ _ (step_put_c64 zp scale RO_SET)). reflexivity.
  - (* u4 -> f32 *) unfold dequant_uint4_to_f32_c, dequant_uint4_to_f32. rewrite (inert_put cv cs op) by auto.
    rewrite (dact_u4_pair_c _ _ _ _ _ (step_put_c (wrap32 zp) scale op)), (du4_finish_c _ _ _ _ _ (step_put_c (wrap32 zp) scale op)).
    destruct A; rewrite ?(inert_reg cv cs) by auto; reflexivity.
  - (* u8 -> f32 *) unfold dequant_uint8_to_f32_c, dequant_uint8_to_f32. rewrite (inert_put cv cs op) by auto.
    rewrite (dact_u8_c _ _ _ _ _ (step_put_c (wrap32 zp) scale op)).
    destruct A; rewrite ?(inert_reg cv cs) by auto; reflexivity.
  - (* u8 -> bf16 *) unfold dequant_uint8_to_bf16_c, dequant_uint8_to_bf16.
    destruct A; rewrite ?(inert_reg_bf16 _ cv cs) by auto; reflexivity.
Qed.
Lemma requant_generic_inert cv cs d dq rm op numel scale thr zp : inert cv cs op ->
  requant_generic_c cs d dq rm op numel scale thr zp = requant_generic d dq rm op numel scale thr zp.
Proof.
  intros H. unfold requant_generic_c, requant_generic.
  assert (R : requant_elem_c cs d dq rm op scale thr zp = requant_elem d dq rm op scale thr zp).
  { extensionality b. extensionality o. unfold requant_elem_c, requant_elem. destruct (quant_step_scalar _ _ _ _ _ _); cbn [bind]; auto.
    assert (X : (x <- diff_i64 zp a;; Ok (put_f32_c cs op scale x o)) = (v <- dq_i64 scale zp a;; Ok (put_f32 op v o))).
    { rewrite (inert_put cv cs) by auto. pose proof (step_put_c64 zp scale op) as Q. apply (f_equal (fun f => f a o)) in Q. exact Q. }
    destruct d; auto. }
  rewrite R. reflexivity.
Qed.

Lemma job_entry_inert cv cs A oaddr d ti tc :
  (match d_type d with CMD_QUANT => True | _ => inert cv cs (d_reducing d) end) ->
  job_entry_c cv cs A oaddr d ti tc = job_entry A oaddr d ti tc.
Proof.
  intros H. unfold job_entry_c, job_entry, quantize_dispatch. destruct (partition_row d ti tc) as [[[o n]|]| |]; cbn [bind]; auto.
  destruct (select_kernel d) as [k| |] eqn:K; cbn [bind]; auto. f_equal. f_equal.
  destruct k as [src dst rm|inn outt op|src dst rm op]; cbn [call_kernel_c call_kernel]; auto.
  - apply dequant_generic_inert. clear -K H.
    destruct d as [ty n s z i o r re th]; destruct ty, i, o, r, re; cbn in *; try discriminate; injection K as <- <- <-; exact H.
  - apply (requant_generic_inert cv). clear -K H.
    destruct d as [ty n s z i o r re th]; destruct ty, i, o, r, re; cbn in *; try discriminate; injection K as <- <- <- <-; exact H.
Qed.
Lemma run_command_inert cv cs A nt oaddr d thr :
  (match d_type d with CMD_QUANT => True | _ => inert cv cs (d_reducing d) end) ->
  run_command_c cv cs A nt oaddr d thr = run_command A nt oaddr d thr.
Proof.
  intros H. unfold run_command_c, run_command. f_equal. apply map_ext. intros ti. apply job_entry_inert.
  destruct (d_rounding d); auto.
Qed.
Lemma dequantize_inert cv cs A nt oaddr is din os dout scale zp op : inert cv cs op ->
  dequantize_c cv cs A nt oaddr is din os dout scale zp op = dequantize A nt oaddr is din os dout scale zp op.
Proof.
  intros H. unfold dequantize_c, dequantize. rewrite (run_command_inert cv cs) by (cbn; auto). reflexivity.
Qed.
Lemma fused_inert cv cs A nt oaddr is d os dq scale zp rm op thr : inert cv cs op ->
  quantize_dequantize_fused_c cv cs A nt oaddr is d os dq scale zp rm op thr = quantize_dequantize_fused A nt oaddr is d os dq scale zp rm op thr.
Proof.
  intros H. unfold quantize_dequantize_fused_c, quantize_dequantize_fused. rewrite (run_command_inert cv cs) by (cbn; auto). reflexivity.
Qed.

(** ** Elements stored by the kernels *)
Definition el_f32_c (cv : bool) (op : reduce_op) (scale : f32) (zp : Z) (q : Z) (old : mem) : mem :=
  le_bytes 4 (bits_of_f32 (match op with
    | RO_SET => fmul (f32_of_Z (wrap32 (q - zp))) scale
    | RO_ADD => if cv then ffma (f32_of_Z (wrap32 (q - zp))) scale (ld_f32 old)
                else fadd (fmul (f32_of_Z (wrap32 (q - zp))) scale) (ld_f32 old)
    end)).
Definition el_bf16_c (A : arch) (cv : bool) (op : reduce_op) (scale : f32) (zp : Z) (q : Z) (old : mem) : mem :=
  let o := f32_of_bits ((Z.shiftl (le_val old) 16) mod 4294967296) in
  le_bytes 2 (cvt_ps_to_bf16 A (match op with
    | RO_SET => fmul (f32_of_Z (wrap32 (q - zp))) scale
    | RO_ADD => if cv then ffma (f32_of_Z (wrap32 (q - zp))) scale o
                else fadd (fmul (f32_of_Z (wrap32 (q - zp))) scale) o
    end)).

Lemma reg_f32_c_ok cv op ln scale zp : el_ok 4 (el_f32_c cv op scale zp) (reg_f32_c cv op ln scale zp) ln.
Proof.
  destruct cv; [destruct op|].
  - exact (reg_f32_ok RO_SET _ _ ln (lanes_mul_ok ln scale zp)).
  - intros r o Hr Ho. unfold reg_f32_c, store_ps, accum_ps, lanes_diff, cvtepi32_ps, sub_epi32, set1. revert r o Hr Ho.
    induction ln as [|ln IH]; intros r o Hr Ho.
    + destruct r; [|discriminate]. reflexivity.
    + destruct r as [|q r]; [discriminate|]. injection Hr as Hr.
      destruct o as [|o0 [|o1 [|o2 [|o3 o]]]]; simpl in Ho; try lia.
      rewrite (chunks_cons 4) by (lia || discriminate). cbn [firstn skipn map2 concat].
      rewrite <- (IH r o) by (auto; lia). unfold loadu_ps. rewrite (chunks_cons 4) by (lia || discriminate).
      cbn [repeat map2 map firstn skipn fmadd_ps flat_map]. reflexivity.
  - pose proof (reg_f32_ok op _ _ ln (lanes_mul_ok ln scale zp)) as H. destruct op; exact H.
Qed.
Lemma reg_bf16_c_ok A cv op ln scale zp : el_ok 2 (el_bf16_c A cv op scale zp) (reg_bf16_c A cv op ln scale zp) ln.
Proof.
  destruct cv; [destruct op|].
  - exact (reg_bf16_ok A RO_SET _ _ ln (lanes_mul_ok ln scale zp)).
  - intros r o Hr Ho. unfold reg_bf16_c, store_u16, accum_ps, lanes_diff, cvtepi32_ps, sub_epi32, set1. revert r o Hr Ho.
    induction ln as [|ln IH]; intros r o Hr Ho.
    + destruct r; [|discriminate]. reflexivity.
    + destruct r as [|q r]; [discriminate|]. injection Hr as Hr.
      destruct o as [|o0 [|o1 o]]; simpl in Ho; try lia.
      rewrite (chunks_cons 2) by (lia || discriminate). cbn [firstn skipn map2 concat].
      rewrite <- (IH r o) by (auto; lia). unfold load_u16. rewrite (chunks_cons 2) by (lia || discriminate).
      cbn [repeat map2 map firstn skipn slli16_castps fmadd_ps flat_map]. reflexivity.
  - pose proof (reg_bf16_ok A op _ _ ln (lanes_mul_ok ln scale zp)) as H. destruct op; exact H.
Qed.

(** bytes stored by the vector loops and by the scalar loops *)
Definition dq_el_vec_c (cv : bool) (A : arch) (din dout : dtype) (op : reduce_op) (scale : f32) (zp : Z) : Z -> mem -> mem :=
  match dout, din with
  | DT_BF16, DT_UINT8 => el_bf16_c A cv op scale (wrap32 zp)
  | DT_BF16, _ => dq_el_vec A din dout op scale zp
  | _, _ => el_f32_c cv op scale (wrap32 zp)
  end.
Definition dq_el_scalar_c (cs : bool) (din dout : dtype) (op : reduce_op) (scale : f32) (zp : Z) : Z -> mem -> res mem :=
  match dout with
  | DT_BF16 => step_put (dq_scalar din dout scale zp) (put_bf16 op)
  | _ => match din with
         | DT_UINT2 => step_put (diff_i64 zp) (put_f32_c cs op scale)
         | _ => step_put (diff_i32 (wrap32 zp)) (put_f32_c cs op scale)
         end
  end.

Section Generic.
Variables (cv cs : bool) (A : arch) (din dout : dtype) (op : reduce_op) (numel : nat) (scale : f32) (zp : Z).
Variables (inm outm : mem) (E : nat -> mem).
Let e := esize dout.
Notation code i := (code_at din inm i).
Notation old i := (slice (e * i) e outm).
Notation v := (vec_end (dq_block A din dout) numel).
Hypothesis Hq : is_q din.
Hypothesis Hfp : is_fp dout.
Hypothesis Hbytes : Forall is_byte inm.
Hypothesis Hin : bytes_for din numel <= length inm.
Hypothesis Hextra : din = DT_UINT2 -> dout = DT_F32 -> numel / 4 < length inm.
Hypothesis Hout : e * numel <= length outm.
Hypothesis HE : forall i, i < numel -> length (E i) = e.
Hypothesis HEv : forall i, i < v -> i < numel -> E i = dq_el_vec_c cv A din dout op scale zp (code i) (old i).
Hypothesis HEs : forall i, v <= i < numel ->
  dq_el_scalar_c cs din dout (dq_op din dout op numel i) scale zp (code i) (old i) = Ok (E i).

Theorem dequant_generic_c_ok : kernelE_ok inm outm e numel E (dequant_generic_c cv cs A din dout op numel scale zp).
Proof.
  assert (Hv : v <= numel).
  { unfold vec_end. destruct (Nat.eq_dec (dq_block A din dout) 0) as [->|H0]; [lia|]. apply Nat.mul_div_le. auto. }
  assert (He : e = 4 \/ e = 2) by (unfold e; destruct Hfp as [->| ->]; cbn; auto).
  assert (HEv' : forall i, i < v -> E i = dq_el_vec_c cv A din dout op scale zp (code i) (old i)) by (intros; apply HEv; lia).
  assert (VL : forall n ilen ln regs g ioff,
     n = dq_block A din dout -> n > 0 -> n = per_byte din * ilen -> regs_ok din ilen ln regs -> ln > 0 ->
     el_ok e (dq_el_vec_c cv A din dout op scale zp) g ln -> (forall i, i mod per_byte din = 0 -> per_byte din * ioff i = i) ->
     St (fun i => i = v) (act_ok inm outm (byteE e E)) (fun i => e * i)
       (run_loop numel ([], 0) (blk_cond numel n, n, dact_block e ilen n ioff (fun b o => emit (e * ln) g (regs b) o)))).
  { intros n ilen ln regs g ioff Hn Hn0 Hnp Hr Hln Hg Hio. unfold vec_end. rewrite <- Hn.
    eapply vec_loop; eauto. rewrite Hn. exact HEv'. }
  assert (I1 : forall i, i mod 1 = 0 -> 1 * id_idx i = i) by (intros; unfold id_idx; lia).
  assert (I2 : forall i, i mod 2 = 0 -> 2 * half_idx i = i) by (intros; unfold half_idx; rewrite div2_half; lia).
  unfold e in *. clear e.
  destruct (match dout, din with DT_BF16, DT_UINT8 => false | DT_BF16, _ => true | _, _ => false end) eqn:Old.
  { (* unchanged kernels *)
    destruct Hq as [Ei|[Ei|Ei]], Hfp as [Eo|Eo]; subst din dout; cbn in Old; try discriminate;
      [change (dequant_generic_c cv cs A DT_UINT2 DT_BF16) with (dequant_generic A DT_UINT2 DT_BF16)
      |change (dequant_generic_c cv cs A DT_UINT4 DT_BF16) with (dequant_generic A DT_UINT4 DT_BF16)];
      apply (dequant_generic_ok A _ DT_BF16 op numel scale zp inm outm E); auto; intros; discriminate. }
  destruct Hq as [Ei|[Ei|Ei]], Hfp as [Eo|Eo]; subst din dout; cbn in Old; try discriminate; clear Old;
    cbn [esize stride per_byte dequant_generic_c] in *.
  - (* u2 -> f32 *)
    unfold dequant_uint2_f32_c, seq_loops. cbn [fold_left].
    assert (Hv0 : (vec_end (dq_block A DT_UINT2 DT_F32) numel) = 0) by (destruct A; reflexivity).
    assert (S2 : St (fun i => i = 4 * (numel / 4)) (act_ok inm outm (byteE 4 E)) (fun i => 4 * i)
       (run_loop numel ([], 0) (blk_cond numel 4, 4, dact_u2 4 (diff_i64 zp) (put_f32_c cs op scale) 4))).
    { eapply (u2_quads inm outm DT_UINT2 4 numel) with (v := 0); auto.
      - lia.
      - apply St_nil. reflexivity.
      - intros i Hi. rewrite <- HEs.
        + cbn [dq_el_scalar_c dq_op]. destruct (Nat.ltb_spec i (4 * (numel / 4))); [reflexivity|lia].
        + rewrite Hv0. clear -Hi. lia. }
    remember (run_loop numel ([], 0) (blk_cond numel 4, 4, dact_u2 4 (diff_i64 zp) (put_f32_c cs op scale) 4)) as st.
    destruct S2 as (P1 & P2 & P3). split.
    + eapply tiles_app; [exact P3|]. unfold dact_u2. constructor; cbn [a_ooff a_olen]; auto.
      replace (4 * snd st + 4 * (numel mod 4)) with (4 * numel) by lia. constructor.
    + apply Forall_app. split; auto. constructor; [|constructor]. rewrite P1.
      apply (dact_u2_ok inm outm DT_UINT2 4 numel); auto; try lia.
      intros j Hj. rewrite <- HEs.
      * cbn [dq_el_scalar_c dq_op]. destruct (Nat.ltb_spec j (4 * (numel / 4))); [lia|reflexivity].
      * rewrite Hv0. clear -Hj. lia.
  - (* u4 -> f32 *)
    unfold dequant_uint4_to_f32_c, seq_loops. rewrite fold_left_app. cbn [fold_left].
    apply (u4_scalar inm outm DT_UINT4 4 numel) with (v := (vec_end (dq_block A DT_UINT4 DT_F32) numel)); auto.
    { clear; destruct A; unfold vec_end; cbn [dq_block]; lia. }
    destruct A; cbn [fold_left]; try (apply St_nil; reflexivity).
    + apply (VL 32 16 4 regs_u4_sse); auto; try lia; [apply regs_u4_sse_ok|apply reg_f32_c_ok].
    + apply (VL 64 32 8 regs_u4_avx2); auto; try lia; [apply regs_u4_avx2_ok|apply reg_f32_c_ok].
    + apply (VL 128 64 16 regs_u4_avx512); auto; try lia; [apply regs_u4_avx512_ok|apply reg_f32_c_ok].
    + apply (VL 128 64 16 regs_u4_avx512); auto; try lia; [apply regs_u4_avx512_ok|apply reg_f32_c_ok].
  - (* u8 -> f32 *)
    unfold dequant_uint8_to_f32_c, seq_loops. rewrite fold_left_app. cbn [fold_left].
    apply (u8_scalar inm outm DT_UINT8 4 numel) with (v := (vec_end (dq_block A DT_UINT8 DT_F32) numel)); auto.
    destruct A; cbn [fold_left]; try (apply St_nil; reflexivity).
    + apply (VL 64 64 4 regs_u8_sse); auto; try lia; [apply regs_u8_sse_ok|apply reg_f32_c_ok].
    + apply (VL 64 64 8 regs_u8_avx2); auto; try lia; [apply regs_u8_avx2_ok|apply reg_f32_c_ok].
    + apply (VL 64 64 16 regs_u8_avx512); auto; try lia; [apply regs_u8_avx512_ok|apply reg_f32_c_ok].
    + apply (VL 64 64 16 regs_u8_avx512); auto; try lia; [apply regs_u8_avx512_ok|apply reg_f32_c_ok].
    + apply (VL 16 16 4 regs_u8_neon); auto; try lia; [apply regs_u8_neon_ok|apply reg_f32_c_ok].
  - (* u8 -> bf16 *)
    unfold dequant_uint8_to_bf16_c, seq_loops. rewrite fold_left_app. cbn [fold_left].
    apply (u8_scalar inm outm DT_UINT8 2 numel) with (v := (vec_end (dq_block A DT_UINT8 DT_BF16) numel)); auto.
    destruct A; cbn [fold_left]; try (apply St_nil; reflexivity);
      apply (VL 64 64 16 regs_u8_avx512); auto; try lia; try apply regs_u8_avx512_ok; apply reg_bf16_c_ok.
Qed.
End Generic.

(** ** The fused kernel *)
Theorem requant_generic_c_ok (cs : bool) (d dq : dtype) rm op numel scale thr zp inm outm E :
  is_fp d -> esize d * numel <= length inm -> esize d * numel <= length outm ->
  (forall i, i < numel -> length (E i) = esize d) ->
  (forall i, i < numel -> requant_elem_c cs d dq rm op scale thr zp (slice (esize d * i) (esize d) inm) (slice (esize d * i) (esize d) outm) = Ok (E i)) ->
  kernelE_ok inm outm (esize d) numel E (requant_generic_c cs d dq rm op numel scale thr zp).
Proof.
  intros Hfp Hin Hout HL HE.
  assert (He : esize d > 0) by (destruct Hfp as [->| ->]; cbn; lia).
  unfold requant_generic_c, seq_loops. cbn [fold_left].
  destruct (run_loop_St (fun i => i <= numel) (act_ok inm outm (byteE (esize d) E)) (fun i => esize d * i) numel ([], 0)
     (blk_cond numel 1) 1 (fun i => mk_action (esize d * i) (esize d) (esize d * i) (esize d) (requant_elem_c cs d dq rm op scale thr zp))) as [H1 H2].
  - apply St_nil. lia.
  - intros i Hi Hc. unfold blk_cond in Hc. apply Nat.ltb_lt in Hc. cbn [Nat.sub] in Hc. rewrite Nat.add_0_r in Hc. split; [lia|].
    split; [|cbn [a_ooff a_olen]; split; [reflexivity|lia]].
    remember (esize d) as e. 
    assert (Hx : requant_elem_c cs d dq rm op scale thr zp (slice (e * i) e inm) (slice (e * i) (e * 1) outm) = Ok (flat_map E (seq i 1))).
    { cbn [seq flat_map]. rewrite app_nil_r, Nat.mul_1_r. apply HE. auto. }
    assert (Q : act_ok inm outm (byteE e E) (mk_action (e * i) e (e * i) (e * 1) (requant_elem_c cs d dq rm op scale thr zp))).
    { apply elem_act_ok; auto; try nia. intros j Hj. apply HL. lia. }
    rewrite Nat.mul_1_r in Q. exact Q.
  - lia.
  - intros; apply blk_cond_ge; auto.
  - destruct H1 as (H3 & H4 & H5). apply blk_cond_false in H2. cbn [Nat.sub] in H2. split; auto.
    rewrite Nat.mul_0_r in H5.
    match type of H5 with tiles _ (_ * ?s) _ => replace s with numel in H5 by lia end. exact H5.
Qed.

(** ** Jobs of a call *)
Section D0c.
Variables (cv cs : bool) (A : arch) (din dout : dtype) (op : reduce_op) (oaddr : Z) (n nt : nat) (scale : f32) (zp : Z).
Hypothesis Hqd : is_q din.
Hypothesis Hfp : is_fp dout.
Hypothesis Hnt : nt > 0.
Hypothesis Hov : (Z.of_nat n * Z.of_nat nt < 2 ^ 63)%Z.
Hypothesis Hov2 : (Z.of_nat nt < 2 ^ 63)%Z.
Hypothesis Hsz : (Z.of_nat (esize dout) * Z.of_nat n < 2 ^ 61)%Z.
Notation b := (part_bound (per_byte din) n nt).
Let d := mk_desc CMD_DEQUANT (Z.of_nat n) scale zp din dout RM_NEAREST op f_zero.

Definition d_job_c (t : nat) : list action :=
  if b (S t) <=? b t then []
  else map (shift_action (b t / per_byte din) (esize dout * b t)) (dequant_generic_c cv cs A din dout op (b (S t) - b t) scale zp).

Lemma d_job_entry_c t : t < nt -> job_entry_c cv cs A oaddr d (Z.of_nat t) (Z.of_nat nt) = Ok (d_job_c t).
Proof.
  intros Ht. assert (Hpe : per_byte din > 0) by (clear -Hqd; destruct Hqd as [->|[->| ->]]; cbn; lia). unfold job_entry_c, d_job_c.
  rewrite (partition_row_ok d n nt t (per_byte din)); auto.
  2:{ unfold d, pack_elems, packed_bits. cbn [d_type d_in d_out]. destruct Hqd as [->|[->| ->]]; reflexivity. }
  cbn [bind]. destruct (Nat.leb_spec (b (S t)) (b t)) as [H|H]; auto.
  unfold d. cbn [d_in d_out d_type].
  pose proof (part_le (per_byte din) n nt Hpe Hnt t) as Hle. unfold esize in Hsz.
  assert (Hdi : byte_off (bit_size dout) (Z.of_nat (b t)) = Z.of_nat (esize dout * b t)).
  { rewrite byte_off_ok by (destruct Hfp as [->| ->]; cbn [bit_size stride] in *; nia).
    f_equal. unfold esize. destruct Hfp as [->| ->]; cbn [bit_size stride]; lia. }
  assert (Hdo : byte_off (bit_size din) (Z.of_nat (b t)) = Z.of_nat (b t / per_byte din)).
  { rewrite byte_off_ok by (destruct Hqd as [->|[->| ->]], Hfp as [->| ->]; cbn [bit_size stride] in *; nia).
    f_equal. destruct Hqd as [->|[->| ->]]; cbn [bit_size per_byte]; lia. }
  rewrite Hdi, Hdo. rewrite select_dequant by auto. cbn [bind call_kernel_c d_scale d_threshold d_zp].
  rewrite !Nat2Z.id. reflexivity.
Qed.

Lemma d_jobs_c : sequence (map (fun ti => job_entry_c cv cs A oaddr d (Z.of_nat ti) (Z.of_nat nt)) (seq 0 nt)) = Ok (map d_job_c (seq 0 nt)).
Proof. apply sequence_ok. intros t Ht. apply in_seq in Ht. apply d_job_entry_c. lia. Qed.
End D0c.

Section Dc.
Variables (cv cs : bool) (A : arch) (din dout : dtype) (op : reduce_op) (n nt : nat) (scale : f32) (zp : Z).
Variables (inm outm : mem) (E : nat -> mem).
Hypothesis Hqd : is_q din.
Hypothesis Hfp : is_fp dout.
Hypothesis Hnt : nt > 0.
Notation b := (part_bound (per_byte din) n nt).
Notation code i := (code_at din inm i).
Notation e := (esize dout).
Notation old i := (slice (e * i) e outm).
Hypothesis Hbytes : Forall is_byte inm.
Hypothesis Hin : bytes_for din n <= length inm.
Hypothesis Hextra : din = DT_UINT2 -> dout = DT_F32 -> n > 0 -> n / 4 < length inm.
Hypothesis Hout : e * n <= length outm.
Hypothesis HE : forall i, i < n -> length (E i) = e.
(** element [i], owned by thread [t], at offset [i - b t] of the kernel call *)
Hypothesis HEv : forall t i, t < nt -> b t <= i < b (S t) -> i - b t < vec_end (dq_block A din dout) (b (S t) - b t) ->
  E i = dq_el_vec_c cv A din dout op scale zp (code i) (old i).
Hypothesis HEs : forall t i, t < nt -> b t <= i < b (S t) -> vec_end (dq_block A din dout) (b (S t) - b t) <= i - b t ->
  dq_el_scalar_c cs din dout (dq_op din dout op n i) scale zp (code i) (old i) = Ok (E i).

Lemma d_job_ok_c t : t < nt ->
  tiles (e * b t) (e * b (S t)) (d_job_c cv cs A din dout op n nt scale zp t) /\
  Forall (act_ok inm outm (byteE e E)) (d_job_c cv cs A din dout op n nt scale zp t).
Proof.
  intros Ht. assert (Hpe : per_byte din > 0) by (clear -Hqd; destruct Hqd as [->|[->| ->]]; cbn; lia). unfold d_job_c.
  pose proof (part_mono _ n nt Hpe Hnt t Ht) as Hm.
  pose proof (part_le _ n nt Hpe Hnt (S t) Ht) as Hle1.
  destruct (part_aligned _ n nt Hpe Hnt t Ht) as [c Hc].
  destruct (Nat.leb_spec (b (S t)) (b t)) as [H|H].
  { replace (b (S t)) with (b t) by lia. split; constructor. }
  assert (Hbd : b t / per_byte din = c) by (rewrite Hc, (Nat.mul_comm _ c), Nat.div_mul by lia; reflexivity).
  rewrite Hbd.
  assert (Hcase : S t = nt /\ b (S t) = n \/ exists c', b (S t) = per_byte din * c').
  { destruct (Nat.eq_dec (S t) nt) as [E1|E1]; [left; split; auto; rewrite E1; apply part_last|right].
    apply part_aligned; lia. }
  assert (He : e > 0) by (clear -Hfp; destruct Hfp as [->| ->]; cbn; lia).
  destruct (dequant_generic_c_ok cv cs A din dout op (b (S t) - b t) scale zp (skipn c inm) (skipn (e * b t) outm) (fun j => E (b t + j))) as [T F]; auto.
  - apply skipn_is_byte; auto.
  - rewrite skipn_length. rewrite bytes_for_per_byte in * by auto. 
    assert (bytes_for din (b (S t)) <= bytes_for din n) as Hb by (rewrite !bytes_for_per_byte by auto; apply Nat.div_le_mono; lia).
    rewrite !bytes_for_per_byte in Hb by auto.
    replace (b (S t)) with (c * per_byte din + (b (S t) - b t)) in Hb by lia.
    rewrite <- Nat.add_assoc, Nat.div_add_l in Hb by lia. lia.
  - intros E1 E2. assert (n > 0) by lia. specialize (Hextra E1 E2 ltac:(lia)). rewrite skipn_length.
    rewrite E1 in *. cbn [per_byte] in *.
    pose proof (u2_last_byte n t nt c Ht ltac:(lia) Hc H). lia.
  - rewrite skipn_length. nia.
  - intros i Hi. apply HE. lia.
  - intros i Hi1 Hi2. rewrite code_at_skipn, slice_skipn by auto. rewrite <- Hc, <- Nat.mul_add_distr_l.
    apply (HEv t); auto; lia.
  - intros i Hi. rewrite code_at_skipn, slice_skipn by auto. rewrite <- Hc, <- Nat.mul_add_distr_l.
    rewrite <- (HEs t (b t + i)); auto; try lia.
    match goal with |- dq_el_scalar_c _ _ _ ?a _ _ _ _ = dq_el_scalar_c _ _ _ ?b _ _ _ _ => assert (Q : a = b); [|rewrite Q; reflexivity] end.
    unfold dq_op. destruct Hqd as [->|[->| ->]], Hfp as [->| ->]; auto. cbn [per_byte] in *.
    destruct (Nat.ltb_spec i (4 * ((part_bound 4 n nt (S t) - part_bound 4 n nt t) / 4))) as [L1|L1],
      (Nat.ltb_spec (part_bound 4 n nt t + i) (4 * (n / 4))) as [L2|L2]; auto; exfalso; clear - L1 L2 Hcase Hc Hle1 Hi; destruct Hcase as [[_ Hcase]|[c2 Hcase]]; lia.
  - split.
    + replace (e * b (S t)) with (e * b t + e * (b (S t) - b t)) by nia. rewrite <- (Nat.add_0_r (e * b t)) at 1. apply tiles_shift. auto.
    + rewrite Forall_map. rewrite Forall_forall in *. intros a Ha.
      pose proof (tiles_range _ _ _ _ T Ha) as [R1 R2].
      eapply act_ok_ext; [|apply act_ok_shift; [| |apply F; auto]].
      * cbn [shift_action a_ooff a_olen]. intros k Hk. apply byteE_shift; lia.
      * rewrite bytes_for_per_byte in Hin by auto. pose proof (part_le _ n nt Hpe Hnt t).
        assert (c <= (n + (per_byte din - 1)) / per_byte din); [|lia].
        apply Nat.div_le_lower_bound; lia.
      * pose proof (part_le _ n nt Hpe Hnt t). nia.
Qed.

Lemma d_jobs_tile_c : tiles 0 (e * n) (concat (map (d_job_c cv cs A din dout op n nt scale zp) (seq 0 nt))).
Proof.
  assert (Hpe : per_byte din > 0) by (clear -Hqd; destruct Hqd as [->|[->| ->]]; cbn; lia).
  pose proof (jobs_tile b (fun i => e * i) (d_job_c cv cs A din dout op n nt scale zp) nt (fun t Ht => proj1 (d_job_ok_c t Ht)) nt (le_n _)) as H.
  cbn beta in H. rewrite part_0, part_last, Nat.mul_0_r in H by auto. exact H.
Qed.
Lemma d_jobs_ok_c : Forall (act_ok inm outm (byteE e E)) (concat (map (d_job_c cv cs A din dout op n nt scale zp) (seq 0 nt))).
Proof. apply jobs_Forall. intros t Ht. apply d_job_ok_c; auto. Qed.

Theorem d_run_c tr : interleave (map (d_job_c cv cs A din dout op n nt scale zp) (seq 0 nt)) tr ->
  run_trace inm tr outm = Ok (map (byteE e E) (seq 0 (e * n)) ++ skipn (e * n) outm).
Proof. intros H. eapply interleave_run; eauto using d_jobs_tile_c, d_jobs_ok_c. Qed.
End Dc.

(** ** Fused *)
Section F0c.
Variables (cv cs : bool) (A : arch) (dt dq : dtype) (rm : round_mode_t) (op : reduce_op) (oaddr : Z) (n nt : nat) (scale thr : f32) (zp : Z).
Hypothesis Hqd : is_q dq.
Hypothesis Hfp : is_fp dt.
Hypothesis Hnt : nt > 0.
Hypothesis Hov : (Z.of_nat n * Z.of_nat nt < 2 ^ 63)%Z.
Hypothesis Hov2 : (Z.of_nat nt < 2 ^ 63)%Z.
Hypothesis Hsz : (Z.of_nat (esize dt) * Z.of_nat n < 2 ^ 61)%Z.
Notation b := (part_bound 1 n nt).
Let d := mk_desc CMD_QUANT_DEQUANT (Z.of_nat n) scale zp dt dq rm op thr.

Definition f_job_c (t : nat) : list action :=
  if b (S t) <=? b t then []
  else map (shift_action (esize dt * b t) (esize dt * b t)) (requant_generic_c cs dt dq rm op (b (S t) - b t) scale thr zp).

Lemma f_job_entry_c t : t < nt -> job_entry_c cv cs A oaddr d (Z.of_nat t) (Z.of_nat nt) = Ok (f_job_c t).
Proof.
  intros Ht. unfold job_entry_c, f_job_c.
  rewrite (partition_row_ok d n nt t 1); auto.
  2:{ unfold d, pack_elems, packed_bits. cbn [d_type d_in d_out]. destruct Hqd as [->|[->| ->]], Hfp as [->| ->]; reflexivity. }
  cbn [bind]. destruct (Nat.leb_spec (b (S t)) (b t)) as [H|H]; auto.
  unfold d. cbn [d_in d_out d_type].
  pose proof (part_le 1 n nt ltac:(lia) Hnt t) as Hle. unfold esize in Hsz.
  assert (Hdi : byte_off (bit_size dt) (Z.of_nat (b t)) = Z.of_nat (esize dt * b t)).
  { rewrite byte_off_ok by (destruct Hfp as [->| ->]; cbn [bit_size stride] in *; nia).
    f_equal. unfold esize. destruct Hfp as [->| ->]; cbn [bit_size stride]; lia. }
  rewrite Hdi. rewrite select_requant by auto. cbn [bind call_kernel_c d_scale d_threshold d_zp].
  rewrite !Nat2Z.id. reflexivity.
Qed.

Lemma f_jobs_c : sequence (map (fun ti => job_entry_c cv cs A oaddr d (Z.of_nat ti) (Z.of_nat nt)) (seq 0 nt)) = Ok (map f_job_c (seq 0 nt)).
Proof. apply sequence_ok. intros t Ht. apply in_seq in Ht. apply f_job_entry_c. lia. Qed.
End F0c.

Section Fc.
Variables (cs : bool) (dt dq : dtype) (rm : round_mode_t) (op : reduce_op) (n nt : nat) (scale thr : f32) (zp : Z).
Variables (inm outm : mem) (E : nat -> mem).
Hypothesis Hfp : is_fp dt.
Hypothesis Hnt : nt > 0.
Notation b := (part_bound 1 n nt).
Notation e := (esize dt).
Hypothesis Hin : e * n <= length inm.
Hypothesis Hout : e * n <= length outm.
Hypothesis HL : forall i, i < n -> length (E i) = e.
Hypothesis HE : forall i, i < n -> requant_elem_c cs dt dq rm op scale thr zp (slice (e * i) e inm) (slice (e * i) e outm) = Ok (E i).

Lemma f_job_ok_c t : t < nt ->
  tiles (e * b t) (e * b (S t)) (f_job_c cs dt dq rm op n nt scale thr zp t) /\
  Forall (act_ok inm outm (byteE e E)) (f_job_c cs dt dq rm op n nt scale thr zp t).
Proof.
  intros Ht. assert (Hpe : 1 > 0) by lia. unfold f_job_c.
  pose proof (part_mono _ n nt Hpe Hnt t Ht) as Hm.
  pose proof (part_le _ n nt Hpe Hnt (S t) Ht) as Hle1.
  destruct (Nat.leb_spec (b (S t)) (b t)) as [H|H].
  { replace (b (S t)) with (b t) by lia. split; constructor. }
  assert (He : e > 0) by (clear -Hfp; destruct Hfp as [->| ->]; cbn; lia).
  destruct (requant_generic_c_ok cs dt dq rm op (b (S t) - b t) scale thr zp (skipn (e * b t) inm) (skipn (e * b t) outm) (fun j => E (b t + j))) as [T F]; auto.
  - rewrite skipn_length. nia.
  - rewrite skipn_length. nia.
  - intros i Hi. apply HL. lia.
  - intros i Hi. rewrite !slice_skipn, <- !Nat.mul_add_distr_l. apply HE. lia.
  - split.
    + replace (e * b (S t)) with (e * b t + e * (b (S t) - b t)) by nia. rewrite <- (Nat.add_0_r (e * b t)) at 1. apply tiles_shift. auto.
    + rewrite Forall_map. rewrite Forall_forall in *. intros a Ha.
      pose proof (tiles_range _ _ _ _ T Ha) as [R1 R2].
      eapply act_ok_ext; [|apply act_ok_shift; [| |apply F; auto]].
      * cbn [shift_action a_ooff a_olen]. intros k Hk. apply byteE_shift; lia.
      * pose proof (part_le _ n nt Hpe Hnt t). nia.
      * pose proof (part_le _ n nt Hpe Hnt t). nia.
Qed.

Lemma f_jobs_tile_c : tiles 0 (e * n) (concat (map (f_job_c cs dt dq rm op n nt scale thr zp) (seq 0 nt))).
Proof.
  pose proof (jobs_tile b (fun i => e * i) (f_job_c cs dt dq rm op n nt scale thr zp) nt (fun t Ht => proj1 (f_job_ok_c t Ht)) nt (le_n _)) as H.
  cbn beta in H. rewrite part_0, part_last, Nat.mul_0_r in H by lia. exact H.
Qed.
Lemma f_jobs_ok_c : Forall (act_ok inm outm (byteE e E)) (concat (map (f_job_c cs dt dq rm op n nt scale thr zp) (seq 0 nt))).
Proof. apply jobs_Forall. intros t Ht. apply f_job_ok_c; auto. Qed.

Theorem f_run_c tr : interleave (map (f_job_c cs dt dq rm op n nt scale thr zp) (seq 0 nt)) tr ->
  run_trace inm tr outm = Ok (map (byteE e E) (seq 0 (e * n)) ++ skipn (e * n) outm).
Proof. intros H. eapply interleave_run; eauto using f_jobs_tile_c, f_jobs_ok_c. Qed.
End Fc.

(** ** The calls *)
Lemma dequantize_jobs_c cv cs A nt oaddr in_size din out_size dout scale zp op :
  quant_type din -> float_type dout -> in_size = bytes_for din (numel dout out_size) -> sizes_ok out_size (numel dout out_size) nt ->
  dequantize_c cv cs A nt oaddr (Z.of_nat in_size) din (Z.of_nat out_size) dout scale zp op =
  Ok (map (d_job_c cv cs A din dout op (numel dout out_size) nt scale zp) (seq 0 nt)).
Proof.
  intros Hq Hfp Ho (S1 & S2 & S3 & S4). unfold dequantize_c.
  rewrite (is_quant_fp dout), (is_quant_q din) by auto. cbn [assert negb bind].
  set (n := numel dout out_size) in *.
  assert (Hst : stride dout = 4 \/ stride dout = 2) by (clear -Hfp; destruct Hfp as [->| ->]; cbn; auto).
  assert (Hn : stride dout * n <= out_size) by (unfold n, numel; apply Nat.mul_div_le; lia).
  assert (Hn' : (Z.of_nat out_size / Z.of_nat (stride dout) = Z.of_nat n)%Z) by (unfold n, numel; rewrite Nat2Z.inj_div; reflexivity).
  rewrite Hn'. change (2 ^ 61)%Z with 2305843009213693952%Z in *. change (2 ^ 63)%Z with 9223372036854775808%Z in *.
  rewrite packed_numel_ok by (auto; change (2 ^ 62)%Z with 4611686018427387904%Z; lia). cbn [bind].
  assert (Hb : bytes_for din n <= n) by (unfold bytes_for; destruct Hq as [->|[->| ->]]; cbn [bit_size]; lia).
  assert (Hsd : stride din = 1) by (destruct Hq as [->|[->| ->]]; reflexivity). rewrite Hsd.
  rewrite wrap_u64_id by (change (2 ^ 64)%Z with 18446744073709551616%Z; lia).
  rewrite Ho. rewrite Z.mul_1_r, Z.eqb_refl. cbn [assert bind].
  rewrite to_i64_id by (change (2 ^ 63)%Z with 9223372036854775808%Z; lia).
  unfold run_command_c. cbn [d_rounding].
  apply d_jobs_c; auto; unfold esize; lia.
Qed.

Lemma fused_jobs_c cv cs A nt oaddr size dt dq scale zp rm op thr :
  float_type dt -> quant_type dq -> sizes_ok size (numel dt size) nt ->
  quantize_dequantize_fused_c cv cs A nt oaddr (Z.of_nat size) dt (Z.of_nat size) dq scale zp rm op thr =
  Ok (map (f_job_c cs dt dq rm op (numel dt size) nt scale (thr_of rm thr) zp) (seq 0 nt)).
Proof.
  intros Hfp Hq (S1 & S2 & S3 & S4). unfold quantize_dequantize_fused_c.
  rewrite is_quant_fp, is_quant_q by auto. cbn [assert negb bind].
  set (n := numel dt size) in *.
  assert (Hst : stride dt = 4 \/ stride dt = 2) by (clear -Hfp; destruct Hfp as [->| ->]; cbn; auto).
  assert (Hn : stride dt * n <= size) by (unfold n, numel; apply Nat.mul_div_le; lia).
  assert (Hn' : (Z.of_nat size / Z.of_nat (stride dt) = Z.of_nat n)%Z) by (unfold n, numel; rewrite Nat2Z.inj_div; reflexivity).
  rewrite Hn'. change (2 ^ 61)%Z with 2305843009213693952%Z in *. change (2 ^ 63)%Z with 9223372036854775808%Z in *.
  rewrite Z.eqb_refl. cbn [assert bind].
  rewrite to_i64_id by (change (2 ^ 63)%Z with 9223372036854775808%Z; lia).
  unfold run_command_c. cbn [d_rounding d_type d_numel d_scale d_zp d_in d_out d_reducing]. 
  replace (match rm with RM_NEAREST => mk_desc CMD_QUANT_DEQUANT (Z.of_nat n) scale zp dt dq rm op f_zero
     | RM_STOCHASTIC => mk_desc CMD_QUANT_DEQUANT (Z.of_nat n) scale zp dt dq rm op thr end)
   with (mk_desc CMD_QUANT_DEQUANT (Z.of_nat n) scale zp dt dq rm op (thr_of rm thr)) by (destruct rm; reflexivity).
  apply f_jobs_c; auto; unfold esize; lia.
Qed.

Lemma dequantize_core_c cv cs A nt oaddr in_size din out_size dout scale zp op inm outm E r :
  quant_type din -> float_type dout -> in_size = bytes_for din (numel dout out_size) -> sizes_ok out_size (numel dout out_size) nt ->
  Forall is_byte inm -> in_size <= length inm -> out_size <= length outm ->
  (din = DT_UINT2 -> dout = DT_F32 -> numel dout out_size > 0 -> numel dout out_size / 4 < length inm) ->
  (forall i, i < numel dout out_size -> length (E i) = esize dout) ->
  let n := numel dout out_size in
  let b := part_bound (per_byte din) n nt in
  (forall t i, t < nt -> b t <= i < b (S t) -> i - b t < vec_end (dq_block A din dout) (b (S t) - b t) ->
    E i = dq_el_vec_c cv A din dout op scale zp (code_at din inm i) (slice (esize dout * i) (esize dout) outm)) ->
  (forall t i, t < nt -> b t <= i < b (S t) -> vec_end (dq_block A din dout) (b (S t) - b t) <= i - b t ->
    dq_el_scalar_c cs din dout (dq_op din dout op n i) scale zp (code_at din inm i) (slice (esize dout * i) (esize dout) outm) = Ok (E i)) ->
  returns inm outm (dequantize_c cv cs A nt oaddr (Z.of_nat in_size) din (Z.of_nat out_size) dout scale zp op) r ->
  r = Ok (map (byteE (esize dout) E) (seq 0 (esize dout * n)) ++ skipn (esize dout * n) outm).
Proof.
  intros Hq Hfp Ho HS Hb Hi Hou Hx HL n b HV HQ HR. rewrite dequantize_jobs_c in HR by auto.
  apply returns_jobs in HR. destruct HR as (tr & HI & ->). pose proof (numel_le dout out_size Hfp). destruct HS as (S1 & _). subst in_size.
  eapply d_run_c; eauto; fold n; lia.
Qed.

Lemma fused_core_c cv cs A nt oaddr size dt dq scale zp rm op thr inm outm E r :
  float_type dt -> quant_type dq -> sizes_ok size (numel dt size) nt ->
  size <= length inm -> size <= length outm ->
  let n := numel dt size in
  (forall i, i < n -> length (E i) = esize dt) ->
  (forall i, i < n -> requant_elem_c cs dt dq rm op scale (thr_of rm thr) zp (slice (esize dt * i) (esize dt) inm) (slice (esize dt * i) (esize dt) outm) = Ok (E i)) ->
  returns inm outm (quantize_dequantize_fused_c cv cs A nt oaddr (Z.of_nat size) dt (Z.of_nat size) dq scale zp rm op thr) r ->
  r = Ok (map (byteE (esize dt) E) (seq 0 (esize dt * n)) ++ skipn (esize dt * n) outm).
Proof.
  intros Hfp Hq HS Hi Hou n HL HE HR. rewrite fused_jobs_c in HR by auto.
  apply returns_jobs in HR. destruct HR as (tr & HI & ->). pose proof (numel_le dt size Hfp). destruct HS as (S1 & _).
  eapply f_run_c; eauto; fold n; lia.
Qed.

