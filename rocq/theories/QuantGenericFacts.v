(** QuantGenericFacts.v -- every instantiation of quant_generic stores the packed codes. *)
From Coq Require Import ZArith List Lia Bool Arith ZifyBool ZifyNat.
From Verif Require Import Base Floats Simd Dtypes Spec QuantKernels ExecFacts QuantFacts QuantKernelFacts.
Import ListNotations.

Ltac Zify.zify_post_hook ::= Z.div_mod_to_equations.

(** Which (input, output, rounding) triples go to a hand-written kernel. *)
Definition specialised (din dout : dtype) (rm : round_mode_t) : bool :=
  match din, dout, rm with
  | DT_F32, DT_UINT8, RM_NEAREST | DT_F32, DT_UINT4, RM_NEAREST
  | DT_BF16, DT_UINT8, RM_NEAREST | DT_BF16, DT_UINT4, RM_NEAREST | DT_BF16, DT_UINT2, RM_NEAREST => true
  | _, _, _ => false
  end.
Definition q_scalar (din dout : dtype) (rm : round_mode_t) (thr inv : f32) (zp : Z) : f32 -> res Z :=
  if specialised din dout rm then q_nearest_i32 (code_max dout) inv (wrap32 zp)
  else quant_step_scalar rm (code_max dout) thr inv zp.
(** Which of those kernels have a vector loop on architecture [A]. *)
Definition has_vec (A : arch) (din dout : dtype) (rm : round_mode_t) : bool :=
  specialised din dout rm &&
  match A, din, dout with
  | AVX512F, _, _ | AVX512BF16, _, _ => true
  | AVX2, _, DT_UINT2 | SSE42, _, DT_UINT2 => false
  | AVX2, _, _ | SSE42, _, _ => true
  | NEON, DT_F32, DT_UINT8 => true
  | _, _, _ => false
  end.
Definition is_q (d : dtype) : Prop := d = DT_UINT2 \/ d = DT_UINT4 \/ d = DT_UINT8.

Lemma clampZ_range lo hi v : (lo <= hi)%Z -> (lo <= clampZ lo hi v <= hi)%Z.
Proof. intros H. unfold clampZ. destruct (Z.ltb_spec v lo); [lia|]. destruct (Z.ltb_spec hi v); lia. Qed.
Lemma clampZ_clamp lo hi v : (lo <= hi)%Z -> clampZ lo hi v = clamp lo hi v.
Proof. intros H. unfold clampZ, clamp. destruct (Z.ltb_spec v lo); [lia|]. destruct (Z.ltb_spec hi v); lia. Qed.

Lemma bind_ok {A B} (r : res A) (f : A -> res B) b : bind r f = Ok b -> exists a, r = Ok a /\ f a = Ok b.
Proof. destruct r; simpl; intros H; try discriminate. eauto. Qed.

Lemma q_scalar_range din dout rm thr inv zp x v : is_q dout ->
  q_scalar din dout rm thr inv zp x = Ok v -> (0 <= v <= code_max dout)%Z.
Proof.
  intros Hd H. assert (0 <= code_max dout)%Z by (destruct Hd as [->|[->| ->]]; cbn; lia).
  unfold q_scalar, quant_step_scalar in H.
  destruct (specialised din dout rm); [|destruct rm].
  all: unfold q_nearest_i32, q_nearest_i64, q_stochastic in H;
    apply bind_ok in H; destruct H as (a & _ & H); apply bind_ok in H; destruct H as (b & _ & H);
    injection H as <-; apply clampZ_range; auto.
Qed.

Lemma seq_add4 i a b c d : seq i a ++ seq (i + a) b ++ seq (i + a + b) c ++ seq (i + a + b + c) d = seq i (a + b + c + d).
Proof.
  rewrite <- !Nat.add_assoc. rewrite (seq_app a (b + (c + d))), (seq_app b (c + d)), (seq_app c d).
  rewrite !Nat.add_assoc. reflexivity.
Qed.

Section Blocks.
Variables (inm : mem) (i : nat) (inv : f32) (zp : Z).
Hypothesis Hbytes : Forall is_byte inm.

Lemma sub_f32 n k bl len : bl = 4 * n -> 4 * k + 4 * n <= len -> 4 * i + len <= length inm ->
  loadu_ps (sub (4 * k) bl (slice (4 * i) len inm)) = map (elem_at DT_F32 inm) (seq (i + k) n).
Proof.
  intros -> H1 H2. rewrite sub_slice by lia. replace (4 * i + 4 * k) with (4 * (i + k)) by lia.
  rewrite loadu_ps_slice by lia. reflexivity.
Qed.
Lemma sub_bf16 n k bl len : bl = 2 * n -> 2 * k + 2 * n <= len -> 2 * i + len <= length inm ->
  widen n (sub (2 * k) bl (slice (2 * i) len inm)) = map (elem_at DT_BF16 inm) (seq (i + k) n).
Proof.
  intros -> H1 H2. rewrite sub_slice by lia. replace (2 * i + 2 * k) with (2 * (i + k)) by lia.
  apply widen_slice; auto; lia.
Qed.
Lemma sub_bf16lo k len : 2 * k + 16 <= len -> 2 * i + len <= length inm ->
  bf16lo (load_u16 (sub (2 * k) 16 (slice (2 * i) len inm))) = map (elem_at DT_BF16 inm) (seq (i + k) 4).
Proof.
  intros H1 H2. rewrite sub_slice by lia. replace (2 * i + 2 * k) with (2 * (i + k)) by lia.
  apply bf16lo_slice; auto; lia.
Qed.
Lemma sub_bf16hi k len : 2 * k + 16 <= len -> 2 * i + len <= length inm ->
  bf16hi (load_u16 (sub (2 * k) 16 (slice (2 * i) len inm))) = map (elem_at DT_BF16 inm) (seq (i + k + 4) 4).
Proof.
  intros H1 H2. rewrite sub_slice by lia. replace (2 * i + 2 * k) with (2 * (i + k)) by lia.
  apply bf16hi_slice; auto; lia.
Qed.

Notation xs d n := (map (elem_at d inm) (seq i n)).
Ltac len := rewrite ?map_length, ?seq_length; reflexivity.
Ltac glue := rewrite <- ?map_app; rewrite ?Nat.mul_0_r, ?Nat.add_0_r; repeat f_equal;
  rewrite <- ?seq_app; try reflexivity.

Lemma f32_u8_avx512_blk : 4 * i + 256 <= length inm ->
  blk_f32_u8_avx512 inv zp (slice (4 * i) 256 inm) = map (lane_x86 255 inv zp) (xs DT_F32 64).
Proof.
  intros H. unfold blk_f32_u8_avx512. cbn [map]. rewrite !(sub_f32 16) by lia. rewrite blk_u8_avx512_eq by (repeat constructor; len).
  f_equal. cbn [concat]. rewrite app_nil_r, <- !map_app. f_equal.
  cbn [Nat.mul Nat.add]. rewrite Nat.add_0_r. change 64 with (16 + 16 + 16 + 16). rewrite <- seq_add4. 
  replace (i + 16 + 16) with (i + 32) by lia. replace (i + 32 + 16) with (i + 48) by lia. reflexivity.
Qed.
Lemma bf16_u8_avx512_blk : 2 * i + 128 <= length inm ->
  blk_bf16_u8_avx512 inv zp (slice (2 * i) 128 inm) = map (lane_x86 255 inv zp) (xs DT_BF16 64).
Proof.
  intros H. unfold blk_bf16_u8_avx512. cbn [map]. rewrite !(sub_bf16 16) by lia. rewrite blk_u8_avx512_eq by (repeat constructor; len).
  f_equal. cbn [concat]. rewrite app_nil_r, <- !map_app. f_equal.
  cbn [Nat.mul Nat.add]. rewrite Nat.add_0_r. change 64 with (16 + 16 + 16 + 16). rewrite <- seq_add4. 
  replace (i + 16 + 16) with (i + 32) by lia. replace (i + 32 + 16) with (i + 48) by lia. reflexivity.
Qed.
Lemma f32_u8_avx2_blk : 4 * i + 128 <= length inm ->
  blk_f32_u8_avx2 inv zp (slice (4 * i) 128 inm) = map (lane_x86 255 inv zp) (xs DT_F32 32).
Proof.
  intros H. unfold blk_f32_u8_avx2. rewrite !(sub_f32 8) by lia. rewrite blk_u8_avx2_eq by len. rewrite <- !map_app. f_equal. f_equal.
  cbn [Nat.mul Nat.add]. rewrite Nat.add_0_r. change 32 with (8 + 8 + 8 + 8). rewrite <- seq_add4. 
  replace (i + 8 + 8) with (i + 16) by lia. replace (i + 16 + 8) with (i + 24) by lia. reflexivity.
Qed.
Lemma bf16_u8_avx2_blk : 2 * i + 64 <= length inm ->
  blk_bf16_u8_avx2 inv zp (slice (2 * i) 64 inm) = map (lane_x86 255 inv zp) (xs DT_BF16 32).
Proof.
  intros H. unfold blk_bf16_u8_avx2. rewrite !(sub_bf16 8) by lia. rewrite blk_u8_avx2_eq by len. rewrite <- !map_app. f_equal. f_equal.
  cbn [Nat.mul Nat.add]. rewrite Nat.add_0_r. change 32 with (8 + 8 + 8 + 8). rewrite <- seq_add4. 
  replace (i + 8 + 8) with (i + 16) by lia. replace (i + 16 + 8) with (i + 24) by lia. reflexivity.
Qed.
Lemma seq16 : seq i 4 ++ seq (i + 4) 4 ++ seq (i + 8) 4 ++ seq (i + 12) 4 = seq i 16.
Proof.
  change 16 with (4 + 4 + 4 + 4). rewrite <- seq_add4.
  replace (i + 4 + 4) with (i + 8) by lia. replace (i + 8 + 4) with (i + 12) by lia. reflexivity.
Qed.
Lemma f32_u8_sse_blk : 4 * i + 64 <= length inm ->
  blk_f32_u8_sse inv zp (slice (4 * i) 64 inm) = map (lane_x86 255 inv zp) (xs DT_F32 16).
Proof.
  intros H. unfold blk_f32_u8_sse. rewrite !(sub_f32 4) by lia. rewrite blk_u8_sse_eq by len. rewrite <- !map_app. f_equal. f_equal.
  cbn [Nat.mul Nat.add]. rewrite Nat.add_0_r. apply seq16.
Qed.
End Blocks.

Section Blocks2.
Variables (inm : mem) (i : nat) (inv : f32) (zp : Z).
Hypothesis Hbytes : Forall is_byte inm.
Notation xs d n := (map (elem_at d inm) (seq i n)).
Ltac len := rewrite ?map_length, ?seq_length; reflexivity.

Lemma bf16_u8_sse_blk : 2 * i + 64 <= length inm ->
  blk_bf16_u8_sse inv zp (slice (2 * i) 64 inm) = map (lane_x86 255 inv zp) (xs DT_BF16 32).
Proof.
  intros H. unfold blk_bf16_u8_sse.
  rewrite !sub_bf16lo, !sub_bf16hi by (auto; lia). rewrite !blk_u8_sse_eq by len. rewrite <- !map_app. f_equal. f_equal.
  cbn [Nat.mul Nat.add]. rewrite Nat.add_0_r.
  replace (i + 8 + 4) with (i + 12) by lia. rewrite seq16.
  replace (i + 24) with (i + 16 + 8) by lia. replace (i + 16 + 8 + 4) with (i + 16 + 12) by lia. rewrite seq16.
  change 32 with (16 + 16). rewrite seq_app. reflexivity.
Qed.

Lemma f32_u8_neon_blk : 4 * i + 64 <= length inm ->
  blk_f32_u8_neon inv zp (slice (4 * i) 64 inm) = map (lane_neon inv zp) (xs DT_F32 16).
Proof.
  intros H. unfold blk_f32_u8_neon. rewrite !(sub_f32 inm i 4) by lia.
  assert (E : forall l : list f32, length l = 4 ->
    map sat_i16 (map (fun x => wrap32 (x + zp)) (map vcvta (mul_ps l (set1 4 inv))))
    = map (fun x => sat_i16 (wrap32 (vcvta (fmul x inv) + zp))) l).
  { intros l Hl. destruct l as [|a [|b [|c [|d [|]]]]]; try discriminate. reflexivity. }
  rewrite !E by len. rewrite !map_app, !map_map, <- app_assoc.
  rewrite <- !map_app. unfold lane_neon.
  cbn [Nat.mul Nat.add]. rewrite Nat.add_0_r, seq16. reflexivity.
Qed.

Lemma nib_map (f : f32 -> Z) d n k : 2 * k + 1 < n -> 
  nib (map f (xs d n)) k = (f (elem_at d inm (i + 2 * k)) + 16 * f (elem_at d inm (i + 2 * k + 1)))%Z.
Proof.
  intros H. unfold nib. rewrite map_map. rewrite !nth_map_seq by lia. rewrite Nat.add_assoc. reflexivity.
Qed.
Lemma quad_map (f : f32 -> Z) d n k : 4 * k + 3 < n -> 
  quad (map f (xs d n)) k = (f (elem_at d inm (i + 4 * k)) + 4 * f (elem_at d inm (i + 4 * k + 1)) +
    16 * f (elem_at d inm (i + 4 * k + 2)) + 64 * f (elem_at d inm (i + 4 * k + 3)))%Z.
Proof.
  intros H. unfold quad. rewrite map_map. rewrite !nth_map_seq by lia. rewrite !Nat.add_assoc. reflexivity.
Qed.

Lemma f32_u4_avx512_blk : 4 * i + 64 <= length inm ->
  blk_f32_u4_avx512 inv zp (slice (4 * i) 64 inm) = map (nib (map (lane_x86 15 inv zp) (xs DT_F32 16))) (seq 0 8).
Proof.
  intros H. unfold blk_f32_u4_avx512. change 64 with (4 * 16). rewrite loadu_ps_slice by lia.
  apply blk_u4_avx512_eq. len.
Qed.
Lemma bf16_u4_avx512_blk : 2 * i + 32 <= length inm ->
  blk_bf16_u4_avx512 inv zp (slice (2 * i) 32 inm) = map (nib (map (lane_x86 15 inv zp) (xs DT_BF16 16))) (seq 0 8).
Proof.
  intros H. unfold blk_bf16_u4_avx512. change 32 with (2 * 16). rewrite widen_slice by (auto; lia).
  apply blk_u4_avx512_eq. len.
Qed.
Lemma f32_u4_avx2_blk : 4 * i + 64 <= length inm ->
  blk_f32_u4_avx2 inv zp (slice (4 * i) 64 inm) = map (nib (map (lane_x86 15 inv zp) (xs DT_F32 16))) (seq 0 8).
Proof.
  intros H. unfold blk_f32_u4_avx2. change (sub 0 32) with (sub (4 * 0) 32). change (sub 32 32) with (sub (4 * 8) 32).
  rewrite !(sub_f32 inm i 8) by lia. rewrite blk_u4_avx2_eq by len. rewrite <- map_app, Nat.add_0_r, <- seq_app. reflexivity.
Qed.
Lemma bf16_u4_avx2_blk : 2 * i + 32 <= length inm ->
  blk_bf16_u4_avx2 inv zp (slice (2 * i) 32 inm) = map (nib (map (lane_x86 15 inv zp) (xs DT_BF16 16))) (seq 0 8).
Proof.
  intros H. unfold blk_bf16_u4_avx2. change (sub 0 16) with (sub (2 * 0) 16). change (sub 16 16) with (sub (2 * 8) 16).
  rewrite !(sub_bf16 inm i ltac:(assumption) 8) by lia. rewrite blk_u4_avx2_eq by len. rewrite <- map_app, Nat.add_0_r, <- seq_app. reflexivity.
Qed.
Lemma f32_u4_sse_blk : 4 * i + 64 <= length inm ->
  blk_f32_u4_sse inv zp (slice (4 * i) 64 inm) = map (nib (map (lane_x86 15 inv zp) (xs DT_F32 16))) (seq 0 8).
Proof.
  intros H. unfold blk_f32_u4_sse. rewrite !(sub_f32 inm i 4) by lia. rewrite blk_u4_sse_eq by len. rewrite <- !map_app.
  cbn [Nat.mul Nat.add]. rewrite Nat.add_0_r, seq16. reflexivity.
Qed.
End Blocks2.

Lemma bf16_u4_sse_blk inm i inv zp : Forall is_byte inm -> 2 * i + 64 <= length inm ->
  blk_bf16_u4_sse inv zp (slice (2 * i) 64 inm) = map (nib (map (lane_x86 15 inv zp) (map (elem_at DT_BF16 inm) (seq i 32)))) (seq 0 16).
Proof.
  intros Hb H. unfold blk_bf16_u4_sse.
  rewrite !sub_bf16lo, !sub_bf16hi by (auto; lia).
  rewrite !blk_u4_sse_eq by (rewrite ?map_length, ?seq_length; reflexivity). rewrite <- !map_app.
  cbn [Nat.mul Nat.add]. rewrite Nat.add_0_r.
  replace (i + 8 + 4) with (i + 12) by lia. rewrite seq16.
  replace (i + 24) with (i + 16 + 8) by lia. replace (i + 16 + 8 + 4) with (i + 16 + 12) by lia. rewrite seq16.
  change (seq 0 16) with (seq 0 8 ++ seq (0 + 8) 8). rewrite map_app. apply f_equal2.
  - apply map_ext_in. intros k Hk. apply in_seq in Hk. rewrite !nib_map by (auto; lia). reflexivity.
  - change (seq (0 + 8) 8) with (map (fun k => 8 + k) (seq 0 8)). rewrite (map_map (fun k => 8 + k)).
    apply map_ext_in. intros k Hk. apply in_seq in Hk. rewrite !nib_map by (auto; lia).
    replace (i + 16 + 2 * k) with (i + 2 * (8 + k)) by lia. reflexivity.
Qed.
Lemma bf16_u2_avx512_blk inm i inv zp : Forall is_byte inm -> 2 * i + 32 <= length inm ->
  blk_bf16_u2_avx512 inv zp (slice (2 * i) 32 inm) = map (quad (map (lane_x86 3 inv zp) (map (elem_at DT_BF16 inm) (seq i 16)))) (seq 0 4).
Proof.
  intros Hb H. apply blk_u2_avx512_eq; [|rewrite map_length, seq_length; reflexivity].
  change 32 with (2 * 16). apply widen_slice; auto; lia.
Qed.

Lemma lanes (inm : mem) (din : dtype) (C : nat -> Z) f n i :
  (forall j, i <= j < i + n -> f (elem_at din inm j) = C j) ->
  map f (map (elem_at din inm) (seq i n)) = map C (seq i n).
Proof. intros Hf. rewrite map_map. apply map_ext_in. intros j Hj. apply in_seq in Hj. apply Hf. lia. Qed.

(** ** Which elements the vector loop of a kernel handles *)
(** elements per vector iteration (0: no vector loop) *)
Definition q_block (A : arch) (din dout : dtype) (rm : round_mode_t) : nat :=
  match A, din, dout, rm with
  | (AVX512F | AVX512BF16), (DT_F32 | DT_BF16), DT_UINT8, RM_NEAREST => 64
  | AVX2, (DT_F32 | DT_BF16), DT_UINT8, RM_NEAREST => 32
  | SSE42, DT_F32, DT_UINT8, RM_NEAREST => 16
  | SSE42, DT_BF16, DT_UINT8, RM_NEAREST => 32
  | NEON, DT_F32, DT_UINT8, RM_NEAREST => 16
  | (AVX512F | AVX512BF16 | AVX2), (DT_F32 | DT_BF16), DT_UINT4, RM_NEAREST => 16
  | SSE42, DT_F32, DT_UINT4, RM_NEAREST => 16
  | SSE42, DT_BF16, DT_UINT4, RM_NEAREST => 32
  | (AVX512F | AVX512BF16), DT_BF16, DT_UINT2, RM_NEAREST => 16
  | _, _, _, _ => 0
  end.
(** elements handled one by one before the first vector iteration, until the output address is aligned *)
Definition q_start (A : arch) (din dout : dtype) (rm : round_mode_t) (oaddr : Z) (numel : nat) : nat :=
  match A, din, dout, rm with
  | (AVX512F | AVX512BF16), DT_F32, DT_UINT8, RM_NEAREST => peel_len oaddr 16 numel
  | AVX2, (DT_F32 | DT_BF16), DT_UINT8, RM_NEAREST => peel_len oaddr 32 numel
  | SSE42, (DT_F32 | DT_BF16), DT_UINT8, RM_NEAREST => peel_len oaddr 16 numel
  | _, _, _, _ => 0
  end.
Definition q_vec (A : arch) (din dout : dtype) (rm : round_mode_t) (oaddr : Z) (numel i : nat) : bool :=
  let p := q_start A din dout rm oaddr numel in
  (p <=? i) && (i <? blk_end p (q_block A din dout rm) numel).
Lemma q_block_vec A din dout rm : has_vec A din dout rm = false -> q_block A din dout rm = 0.
Proof. destruct A, din, dout, rm; cbn; congruence. Qed.
Lemma q_start_le A din dout rm oaddr n : q_start A din dout rm oaddr n <= n.
Proof. destruct A, din, dout, rm; cbn [q_start]; try (unfold peel_len; apply Nat.le_min_l); apply Nat.le_0_l. Qed.
Lemma q_vec_has A din dout rm oaddr n i : q_vec A din dout rm oaddr n i = true -> has_vec A din dout rm = true.
Proof.
  intros H. destruct (has_vec A din dout rm) eqn:E; auto. apply q_block_vec in E. unfold q_vec, blk_end in H. rewrite E, Nat.mul_0_l in H. cbv zeta in H. lia.
Qed.

Ltac tlia := repeat match goal with H : forall _, _ |- _ => clear H | H : exists _, _ |- _ => clear H end; lia.
Section Generic.
Variables (A : arch) (din dout : dtype) (rm : round_mode_t) (oaddr : Z) (numel : nat) (scale thr : f32) (zp : Z).
Variables (inm outm : mem) (C : nat -> Z).
Let inv := fdiv f_one scale.
Let q := q_scalar din dout rm thr inv zp.
Notation x i := (elem_at din inm i).
Notation V := (q_vec A din dout rm oaddr numel).
Hypothesis Hfp : is_fp din.
Hypothesis Hqd : is_q dout.
Hypothesis Hbytes : Forall is_byte inm.
Hypothesis Hin : esize din * numel <= length inm.
Hypothesis Hout : bytes_for dout numel <= length outm.
Hypothesis Hq : forall i, i < numel -> V i = false -> q (x i) = Ok (C i).
Hypothesis Hz : forall i, i < numel -> V i = false -> exists z, q f_zero = Ok z.
Hypothesis Hv : forall i, i < numel -> V i = true -> lane A (code_max dout) inv (wrap32 zp) (x i) = C i.

Lemma HCr i : i < numel -> (0 <= C i <= code_max dout)%Z.
Proof.
  intros Hi. destruct (V i) eqn:E.
  - rewrite <- Hv by auto. apply q_vec_has in E.
    assert (0 <= code_max dout)%Z by (clear -Hqd; destruct Hqd as [->|[->| ->]]; cbn; lia).
    clear -E Hqd H. destruct A; cbn [lane]; try (apply lane_x86_range; auto).
    destruct din, dout, rm; cbn in E; try discriminate E. unfold lane_neon, sat_u8. change (code_max DT_UINT8) with 255%Z. lia.
  - eapply q_scalar_range; eauto.
Qed.

Lemma Ple_all : has_vec A din dout rm = false -> Ple numel V 0.
Proof.
  intros H. split; [lia|]. intros j Hj. destruct (V j) eqn:E; auto. apply q_vec_has in E. congruence.
Qed.

Theorem quant_generic_ok : kernel_ok inm outm dout numel C (quant_generic A din dout rm oaddr numel scale thr zp).
Proof.
  pose proof HCr as HC.
  assert (Hz' : forall i, i < numel -> V i = false -> exists z, q f_zero = Ok z /\ (0 <= z <= code_max dout)%Z).
  { intros i0 Hi0 HV0. destruct (Hz i0 Hi0 HV0) as (z & E). exists z. split; auto. eapply q_scalar_range; eauto. }
  assert (G8 : forall st, dout = DT_UINT8 -> St (Ple numel V) (act_ok inm outm (byte_of DT_UINT8 (cut numel C))) (fun i => i) st ->
     kernel_ok inm outm DT_UINT8 numel C (fst (run_loop numel st (blk_cond numel 1, 1, act_u8 din q)))).
  { intros st E HS. assert (Hout' := Hout). rewrite E, bytes_for_u8 in Hout'.
    destruct (u8_scalar_loop inm outm din numel C V Hfp Hin Hout' q Hq st HS) as [S1 S2].
    eapply u8_done; eauto. }
  assert (HVt : forall j, blk_end (q_start A din dout rm oaddr numel) (q_block A din dout rm) numel <= j < numel -> V j = false).
  { intros j Hj. unfold q_vec. cbv zeta. destruct (Nat.ltb_spec j (blk_end (q_start A din dout rm oaddr numel) (q_block A din dout rm) numel)); [lia|]. apply andb_false_r. }
  assert (HVp : forall j, j < q_start A din dout rm oaddr numel -> V j = false).
  { intros j Hj. unfold q_vec. cbv zeta. destruct (Nat.leb_spec (q_start A din dout rm oaddr numel) j); [lia|]. reflexivity. }
  assert (HvB : forall i n, q_start A din dout rm oaddr numel <= i -> i + n <= blk_end (q_start A din dout rm oaddr numel) (q_block A din dout rm) numel ->
     forall j, i <= j < i + n -> lane A (code_max dout) inv (wrap32 zp) (x j) = C j).
  { intros i n H1 H2 j Hj. pose proof (q_start_le A din dout rm oaddr numel) as L.
    pose proof (blk_end_le _ (q_block A din dout rm) numel L). apply Hv; [lia|]. unfold q_vec. cbv zeta. lia. }
  assert (G8e : forall p n st, p <= numel -> p = q_start A din dout rm oaddr numel -> n = q_block A din dout rm ->
    St (fun i => i = blk_end p n numel) (act_ok inm outm (byte_of DT_UINT8 (cut numel C))) (fun i => i) st ->
    St (Ple numel V) (act_ok inm outm (byte_of DT_UINT8 (cut numel C))) (fun i => i) st).
  { intros p n st Hp -> -> HS. eapply St_weaken; [exact HS|]. intros ->. split; [apply blk_end_le; auto|exact HVt]. }
  assert (G8nil : has_vec A din dout rm = false -> St (Ple numel V) (act_ok inm outm (byte_of DT_UINT8 (cut numel C))) (fun i => i) ([], 0)).
  { intros H. apply St_nil. apply Ple_all; auto. }
  assert (G4nil : has_vec A din dout rm = false -> St (P2 numel V) (act_ok inm outm (byte_of DT_UINT4 (cut numel C))) half_idx ([], 0)).
  { intros H. apply St_nil. destruct (Ple_all H). split; [lia|split; [reflexivity|auto]]. }
  assert (G2nil : has_vec A din dout rm = false -> St (P4 numel V) (act_ok inm outm (byte_of DT_UINT2 (cut numel C))) quarter_idx ([], 0)).
  { intros H. apply St_nil. destruct (Ple_all H). split; [lia|split; [reflexivity|auto]]. }
  (* generic kernels *)
  assert (K8 : has_vec A din dout rm = false -> dout = DT_UINT8 -> kernel_ok inm outm dout numel C (quant_plain din q numel)).
  { intros HN E. rewrite E at 1. apply G8; auto. }
  assert (K4 : has_vec A din dout rm = false -> dout = DT_UINT4 -> kernel_ok inm outm dout numel C (quant_uint4 din q numel)).
  { intros HN E. rewrite E at 1. unfold quant_uint4, seq_loops. cbn [fold_left].
    apply (u4_finish_ok inm outm din numel C V); auto; rewrite ?E in *; auto. rewrite bytes_for_u4 in Hout; auto. }
  assert (K2 : has_vec A din dout rm = false -> dout = DT_UINT2 -> kernel_ok inm outm dout numel C (quant_uint2 din q numel)).
  { intros HN E. rewrite E at 1. unfold quant_uint2, seq_loops. cbn [fold_left].
    apply (u2_finish_ok inm outm din numel C V); auto; rewrite ?E in *; auto. rewrite bytes_for_u2 in Hout; auto. eauto. }
  assert (NV : specialised din dout rm = false -> has_vec A din dout rm = false).
  { intros H. unfold has_vec. rewrite H. reflexivity. }
  assert (M4 : forall z, (Z.land z 15 =? 0)%Z = (z mod 16 =? 0)%Z).
  { intros z. change 15%Z with (Z.ones 4). rewrite Z.land_ones by lia. reflexivity. }
  assert (M5 : forall z, (Z.land z 31 =? 0)%Z = (z mod 32 =? 0)%Z).
  { intros z. change 31%Z with (Z.ones 5). rewrite Z.land_ones by lia. reflexivity. }
  destruct Hfp as [Ei|Ei], Hqd as [Eo|[Eo|Eo]]; subst din dout; destruct rm;
    cbn [quant_generic specialised q_scalar limit_max] in *;
    try (first [exact (K8 (NV eq_refl) eq_refl)|exact (K4 (NV eq_refl) eq_refl)|exact (K2 (NV eq_refl) eq_refl)]);
    clear K8 K4 K2 NV.
  - (* f32 -> u4 *)
    remember (q_vec A DT_F32 DT_UINT4 RM_NEAREST oaddr numel) as V0 eqn:EV. clear EV.
    unfold quant_f32_to_uint4_nearest. change (q_nearest_i32 15 (fdiv f_one scale) (wrap32 zp)) with q.
    unfold seq_loops. rewrite fold_left_app. cbn [fold_left].
    apply (u4_finish_ok inm outm DT_F32 numel C V0); auto. { rewrite bytes_for_u4 in Hout; auto. }
    destruct A; cbn [fold_left]; auto; cbn [q_start q_block lane] in HVt, HvB;
      change 8 with (16 / 2); apply u4_block_loop with (V := V0) (q := q); auto; try (clear; lia); try (rewrite bytes_for_u4 in Hout; auto; fail);
      intros i Hi; pose proof (blk_end_le 0 16 numel (Nat.le_0_l _)); specialize (HvB i 16 (Nat.le_0_l _) Hi); cbn [esize stride] in *; change (4 * 16) with 64.
    all: first [rewrite f32_u4_sse_blk by tlia | rewrite f32_u4_avx2_blk by tlia | rewrite f32_u4_avx512_blk by tlia].
    all: apply map_ext_in; intros k Hk; apply in_seq in Hk; change (16 / 2) with 8 in Hk; rewrite nib_map by (auto; tlia);
      rewrite !HvB by tlia; reflexivity.
  - (* f32 -> u8 *)
    remember (q_vec A DT_F32 DT_UINT8 RM_NEAREST oaddr numel) as V0 eqn:EV. clear EV.
    unfold quant_f32_to_uint8_nearest. change (q_nearest_i32 255 (fdiv f_one scale) (wrap32 zp)) with q.
    unfold seq_loops. rewrite fold_left_app. cbn [fold_left].
    apply G8; auto. rewrite bytes_for_u8 in Hout.
    destruct A; cbn [fold_left]; auto; cbn [q_start q_block lane] in HVt, HVp, HvB;
      eapply (G8e _ _ _ (q_start_le _ _ _ _ _ _) eq_refl eq_refl); cbn [q_start q_block].
    + apply u8_stream_loop with (V := V0) (q := q); auto; try (clear; lia); try apply peel_len_le; try (apply (u8_peel inm outm _ numel C V0); auto; tlia).
      intros i Hp Hi. pose proof (blk_end_le _ 16 numel (peel_len_le oaddr 16 numel)). specialize (HvB i 16 Hp Hi).
      cbn [esize stride] in *. change (4 * 16) with 64. rewrite f32_u8_sse_blk by tlia. apply lanes; auto.
    + apply u8_stream_loop with (V := V0) (q := q); auto; try (clear; lia); try apply peel_len_le; try (apply (u8_peel inm outm _ numel C V0); auto; tlia).
      intros i Hp Hi. pose proof (blk_end_le _ 32 numel (peel_len_le oaddr 32 numel)). specialize (HvB i 32 Hp Hi).
      cbn [esize stride] in *. change (4 * 32) with 128. rewrite f32_u8_avx2_blk by tlia. apply lanes; auto.
    + apply u8_stream_loop with (V := V0) (q := q); auto; try (clear; lia); try apply peel_len_le; try (apply (u8_peel inm outm _ numel C V0); auto; tlia).
      intros i Hp Hi. pose proof (blk_end_le _ 64 numel (peel_len_le oaddr 16 numel)). specialize (HvB i 64 Hp Hi).
      cbn [esize stride] in *. change (4 * 64) with 256. rewrite f32_u8_avx512_blk by tlia. apply lanes; auto.
    + apply u8_stream_loop with (V := V0) (q := q); auto; try (clear; lia); try apply peel_len_le; try (apply (u8_peel inm outm _ numel C V0); auto; tlia).
      intros i Hp Hi. pose proof (blk_end_le _ 64 numel (peel_len_le oaddr 16 numel)). specialize (HvB i 64 Hp Hi).
      cbn [esize stride] in *. change (4 * 64) with 256. rewrite f32_u8_avx512_blk by tlia. apply lanes; auto.
    + apply u8_block_loop with (V := V0) (q := q); auto; try (clear; lia); try (apply St_nil; reflexivity).
      intros i Hp Hi. pose proof (blk_end_le 0 16 numel (Nat.le_0_l _)). specialize (HvB i 16 Hp Hi).
      cbn [esize stride] in *. change (4 * 16) with 64. rewrite f32_u8_neon_blk by tlia. apply lanes; auto.
  - (* bf16 -> u2 *)
    remember (q_vec A DT_BF16 DT_UINT2 RM_NEAREST oaddr numel) as V0 eqn:EV. clear EV.
    unfold quant_bf16_to_uint2_nearest. change (q_nearest_i32 3 (fdiv f_one scale) (wrap32 zp)) with q.
    unfold seq_loops. rewrite fold_left_app. cbn [fold_left].
    rewrite bytes_for_u2 in Hout.
    apply (u2_finish_ok inm outm DT_BF16 numel C V0); auto.
    destruct A; cbn [fold_left]; auto; cbn [q_start q_block lane] in HVt, HvB;
      apply u2_block_loop with (V := V0) (q := q) (zq := q f_zero) (n := 16) ; auto; try (clear; lia);
      intros i Hi; pose proof (blk_end_le 0 16 numel (Nat.le_0_l _)); specialize (HvB i 16 (Nat.le_0_l _) Hi);
      cbn [esize stride] in *; change (2 * 16) with 32; rewrite bf16_u2_avx512_blk by (auto; tlia);
      apply map_ext_in; intros k Hk; apply in_seq in Hk; change (16 / 4) with 4 in Hk; rewrite quad_map by (auto; tlia);
      rewrite !HvB by tlia; reflexivity.
  - (* bf16 -> u4 *)
    remember (q_vec A DT_BF16 DT_UINT4 RM_NEAREST oaddr numel) as V0 eqn:EV. clear EV.
    unfold quant_bf16_to_uint4_nearest. change (q_nearest_i32 15 (fdiv f_one scale) (wrap32 zp)) with q.
    unfold seq_loops. rewrite fold_left_app. cbn [fold_left].
    rewrite bytes_for_u4 in Hout.
    apply (u4_finish_ok inm outm DT_BF16 numel C V0); auto.
    destruct A; cbn [fold_left]; auto; cbn [q_start q_block lane] in HVt, HvB.
    1: apply u4_block_loop with (V := V0) (q := q) (n := 32); auto; try (clear; lia); intros i Hi; cbn [esize stride] in *.
    2-4: apply u4_block_loop with (V := V0) (q := q) (n := 16); auto; try (clear; lia); intros i Hi; cbn [esize stride] in *.
    1: pose proof (blk_end_le 0 32 numel (Nat.le_0_l _)); specialize (HvB i 32 (Nat.le_0_l _) Hi); change (2 * 32) with 64; rewrite bf16_u4_sse_blk by (auto; tlia).
    2-4: pose proof (blk_end_le 0 16 numel (Nat.le_0_l _)); specialize (HvB i 16 (Nat.le_0_l _) Hi); change (2 * 16) with 32; first [rewrite bf16_u4_avx2_blk by (auto; tlia) | rewrite bf16_u4_avx512_blk by (auto; tlia)].
    all: apply map_ext_in; intros k Hk; apply in_seq in Hk; change (16 / 2) with 8 in Hk; change (32 / 2) with 16 in Hk;
      rewrite nib_map by (auto; tlia); rewrite !HvB by tlia; reflexivity.
  - (* bf16 -> u8 *)
    remember (q_vec A DT_BF16 DT_UINT8 RM_NEAREST oaddr numel) as V0 eqn:EV. clear EV.
    unfold quant_bf16_to_uint8_nearest. change (q_nearest_i32 255 (fdiv f_one scale) (wrap32 zp)) with q.
    unfold seq_loops. rewrite fold_left_app. cbn [fold_left].
    apply G8; auto. rewrite bytes_for_u8 in Hout.
    destruct A; cbn [fold_left]; auto; cbn [q_start q_block lane] in HVt, HVp, HvB;
      eapply (G8e _ _ _ (q_start_le _ _ _ _ _ _) eq_refl eq_refl); cbn [q_start q_block].
    + apply u8_block_loop with (V := V0) (q := q); auto; try (clear; lia); try apply peel_len_le.
      * intros i Hp Hi. pose proof (blk_end_le _ 32 numel (peel_len_le oaddr 16 numel)). specialize (HvB i 32 Hp Hi).
        cbn [esize stride] in *. change (2 * 32) with 64. rewrite bf16_u8_sse_blk by (auto; tlia). apply lanes; auto.
      * eapply St_weaken; [apply (u8_peel inm outm DT_BF16 numel C V0) with (al := 16%Z); auto; lia|]. intros [HH _]. exact HH.
    + apply u8_stream_loop with (V := V0) (q := q); auto; try (clear; lia); try apply peel_len_le; try (apply (u8_peel inm outm _ numel C V0); auto; tlia).
      intros i Hp Hi. pose proof (blk_end_le _ 32 numel (peel_len_le oaddr 32 numel)). specialize (HvB i 32 Hp Hi).
      cbn [esize stride] in *. change (2 * 32) with 64. rewrite bf16_u8_avx2_blk by (auto; tlia). apply lanes; auto.
    + apply u8_block_loop with (V := V0) (q := q); auto; try (clear; lia); try (apply St_nil; reflexivity).
      intros i Hp Hi. pose proof (blk_end_le 0 64 numel (Nat.le_0_l _)). specialize (HvB i 64 Hp Hi).
      cbn [esize stride] in *. change (2 * 64) with 128. rewrite bf16_u8_avx512_blk by (auto; tlia). apply lanes; auto.
    + apply u8_block_loop with (V := V0) (q := q); auto; try (clear; lia); try (apply St_nil; reflexivity).
      intros i Hp Hi. pose proof (blk_end_le 0 64 numel (Nat.le_0_l _)). specialize (HvB i 64 Hp Hi).
      cbn [esize stride] in *. change (2 * 64) with 128. rewrite bf16_u8_avx512_blk by (auto; tlia). apply lanes; auto.
Qed.
End Generic.
