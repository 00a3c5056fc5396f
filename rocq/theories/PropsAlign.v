(** PropsAlign.v -- C03: streaming stores go to aligned addresses, and no vector iteration fails, whatever the data. *)
From Coq Require Import ZArith List Bool Arith Lia ZifyBool ZifyNat.
From Coq Require Import Reals.
From Verif Require Import Base Floats Simd Dtypes Spec ApiSpec QuantKernels DequantKernels ExecFacts FloatFacts QuantFacts QuantKernelFacts LoopFacts
  QuantGenericFacts DequantFacts Context ContextFacts Footprint QuantizeFacts DequantizeFacts Api PropsQuantize Schedule PropsMemory NoAbort PropsWeak WeakMem.
Import ListNotations.

(** what the streaming instruction of the kernel set needs: 32 bytes for _mm256_stream_si256, 16 for _mm_stream_si128 *)
Definition stream_width (A : arch) : Z := match A with AVX2 => 32 | _ => 16 end.

Lemma stream_pos numel oaddr mask al n b1 b2 a : (0 < al)%Z -> (forall z, (Z.land z mask =? 0)%Z = (z mod al =? 0)%Z) -> n >= 1 -> (Z.of_nat n mod al = 0)%Z ->
  (forall i, a_olen (b1 i) = 1) -> 1 < a_olen a ->
  In a (fst (seq_loops numel [(peel_cond oaddr mask numel, 1, b1); (blk_cond numel n, n, b2); (blk_cond numel 1, 1, b1)])) ->
  exists i, a = b2 i /\ ((oaddr + Z.of_nat i) mod al = 0)%Z.
Proof.
  intros Hal Hm Hn Hmod H1 HL Ha. unfold seq_loops in Ha. cbn [fold_left] in Ha. pose proof (peel_len_le oaddr al numel) as Hp.
  rewrite (run_loop_peel numel oaddr mask al b1 [] Hal Hm) in Ha. set (p := peel_len oaddr al numel) in *.
  assert (Hpe : p < numel -> p = Z.to_nat ((- oaddr) mod al)) by (unfold p, peel_len; lia). clearbody p.
  rewrite run_loop_blk in Ha by lia. rewrite run_loop_blk in Ha by (try apply blk_end_le; lia). cbn [fst app] in Ha.
  rewrite !in_app_iff, !in_map_iff in Ha. destruct Ha as [[(j & <- & _)|(j & <- & Hj)]|(j & <- & _)]; [rewrite H1 in HL; lia| |rewrite H1 in HL; lia].
  apply in_seq in Hj. eexists. split; [reflexivity|].
  assert (p < numel) by (destruct (Nat.lt_ge_cases p numel) as [|G]; auto; replace (numel - p) with 0 in Hj by lia; rewrite Nat.div_0_l in Hj by lia; lia).
  rewrite Hpe by auto. pose proof (Z.mod_pos_bound (- oaddr) al Hal). rewrite Nat2Z.inj_add, Nat2Z.inj_mul, Z2Nat.id by lia.
  rewrite Z.add_assoc. apply Z.mod_divide in Hmod; [|lia]. destruct Hmod as [c ->].
  replace (c * al * Z.of_nat j)%Z with (c * Z.of_nat j * al)%Z by ring. rewrite Z.mod_add by lia. rewrite Z.add_mod_idemp_r by lia. rewrite Z.add_opp_diag_r. apply Z.mod_0_l. lia.
Qed.

Definition total_step (a : action) : Prop := forall b o, exists v, a_fn a b o = Ok v.
Definition stream_ok (A : arch) (oaddr : Z) (a : action) : Prop :=
  ((oaddr + Z.of_nat (a_ooff a)) mod stream_width A = 0 /\ Z.of_nat (a_olen a) mod stream_width A = 0)%Z /\ total_step a.

Lemma stream_kernel_ok A din oaddr n scale thr zp a : float_type din -> streaming_kernel A din DT_UINT8 RM_NEAREST = true ->
  In a (quant_generic A din DT_UINT8 RM_NEAREST oaddr n scale thr zp) -> 1 < a_olen a -> stream_ok A oaddr a.
Proof.
  intros Hf HS Ha HL.
  assert (G : forall al d w f i, ((oaddr + Z.of_nat i) mod al = 0)%Z -> total_step (act_block_stream oaddr al d w w f i)).
  { intros al d w f i H b o. unfold act_block_stream. cbn [a_fn]. rewrite H, Z.eqb_refl. eauto. }
  destruct Hf as [->| ->], A; try discriminate; cbn [quant_generic] in Ha; unfold quant_f32_to_uint8_nearest, quant_bf16_to_uint8_nearest in Ha; cbn [app] in Ha.
  all: match type of Ha with
       | context [act_block_stream _ _ _ 64 _ _] => apply (stream_pos n oaddr 15 16 64) in Ha
       | context [act_block_stream _ _ _ 32 _ _] => apply (stream_pos n oaddr 31 32 32) in Ha
       | _ => apply (stream_pos n oaddr 15 16 16) in Ha end; auto using mask15, mask31; try lia.
  all: destruct Ha as (i & -> & E); split; [split; [exact E|reflexivity]|apply G; exact E].
Qed.

(** ** C03.  Every streaming store of an accepted call is aligned to the width of the instruction: any data, any output address, any thread count. *)
Theorem C03_streaming_aligned A nt oaddr din dout scale zp rm thr in_size out_size jobs :
  float_type din -> quant_type dout -> out_size = bytes_for dout (numel din in_size) -> sizes_ok in_size (numel din in_size) nt ->
  quantize A nt oaddr (Z.of_nat in_size) din (Z.of_nat out_size) dout scale zp rm thr = Ok jobs ->
  forall j a, In j jobs -> In a j -> streams A din dout rm a = true ->
    ((oaddr + Z.of_nat (a_ooff a)) mod stream_width A = 0 /\ Z.of_nat (a_olen a) mod stream_width A = 0)%Z.
Proof.
  intros Hf Hq Ho HS HJ j a Hj Ha St. rewrite quantize_jobs in HJ by auto. injection HJ as <-. apply in_map_iff in Hj. destruct Hj as (t & <- & Ht).
  unfold streams in St. apply andb_prop in St. destruct St as [SK SL]. apply Nat.ltb_lt in SL.
  assert (dout = DT_UINT8 /\ rm = RM_NEAREST) as [-> ->] by (unfold streaming_kernel in SK; destruct A, din, dout, rm; try discriminate; auto).
  unfold q_job in Ha. set (b := part_bound _ _ _) in *. destruct (_ <=? _); [destruct Ha|]. apply in_map_iff in Ha. destruct Ha as (a' & <- & Ha).
  cbn [shift_action a_olen a_ooff] in *. destruct (stream_kernel_ok _ _ _ _ _ _ _ _ Hf SK Ha SL) as [[E1 E2] _].
  split; auto. rewrite Nat2Z.inj_add. rewrite Z.add_assoc. exact E1.
Qed.

(** A vector iteration never fails, whatever bytes it loads. *)
Lemma blocks_total A din dout rm oaddr n scale thr zp : float_type din -> quant_type dout -> streaming_kernel A din dout rm = false ->
  Forall (fun a => 1 < a_olen a -> total_step a) (quant_generic A din dout rm oaddr n scale thr zp).
Proof.
  intros Hf Hq HS.
  assert (B1 : forall d w l o_of f i, total_step (act_block d w l o_of f i)) by (intros d w l o_of f i b o; unfold act_block; cbn [a_fn]; eauto).
  assert (P : forall q, Forall (fun a => 1 < a_olen a -> total_step a) (quant_plain din q n)).
  { intros q. apply seq_loops_Forall. constructor; [|constructor]. cbn [snd]. intros i H. cbn in H. lia. }
  assert (F4 : forall q st, Forall (fun a => 1 < a_olen a -> total_step a) (fst st) -> Forall (fun a => 1 < a_olen a -> total_step a) (u4_finish din q n st)).
  { intros q st H. unfold u4_finish. apply Forall_app. split; auto. destruct (Nat.odd n); [|constructor]. constructor; [|constructor]. intros G. cbn in G. lia. }
  assert (F2 : forall q zq st, Forall (fun a => 1 < a_olen a -> total_step a) (fst st) -> Forall (fun a => 1 < a_olen a -> total_step a) (u2_finish din q zq n st)).
  { intros q zq st H. unfold u2_finish. apply Forall_app. split; auto. destruct (Nat.eqb _ 0); [constructor|]. constructor; [|constructor]. intros G. cbn in G. lia. }
  unfold quant_generic. cbv zeta.
  destruct Hf as [->| ->], Hq as [->|[->| ->]], rm;
    try (apply P); try (apply F4; apply seq_loops_Forall); try (apply F2; apply seq_loops_Forall); try apply seq_loops_Forall;
    try (destruct A; cbn [app]; try discriminate HS);
    repeat first [ apply Forall_cons; [cbn [snd]; intros i H; try apply B1; cbn in H; lia|] | apply Forall_nil ].
Qed.
Theorem C03_vector_steps_total A nt oaddr din dout scale zp rm thr in_size out_size jobs :
  float_type din -> quant_type dout -> out_size = bytes_for dout (numel din in_size) -> sizes_ok in_size (numel din in_size) nt ->
  quantize A nt oaddr (Z.of_nat in_size) din (Z.of_nat out_size) dout scale zp rm thr = Ok jobs ->
  forall j a, In j jobs -> In a j -> 1 < a_olen a -> forall b o, exists v, a_fn a b o = Ok v.
Proof.
  intros Hf Hq Ho HS HJ j a Hj Ha HL. rewrite quantize_jobs in HJ by auto. injection HJ as <-. apply in_map_iff in Hj. destruct Hj as (t & <- & Ht).
  unfold q_job in Ha. set (b := part_bound _ _ _) in *. destruct (_ <=? _); [destruct Ha|]. apply in_map_iff in Ha. destruct Ha as (a' & <- & Ha).
  cbn [shift_action a_olen a_fn] in *. destruct (streaming_kernel A din dout rm) eqn:SK.
  - assert (dout = DT_UINT8 /\ rm = RM_NEAREST) as [-> ->] by (unfold streaming_kernel in SK; destruct A, din, dout, rm; try discriminate; auto).
    exact (proj2 (stream_kernel_ok _ _ _ _ _ _ _ _ Hf SK Ha HL)).
  - pose proof (blocks_total A din dout rm (oaddr + Z.of_nat (b t / per_byte dout)) (b (S t) - b t) scale (thr_of rm thr) zp Hf Hq SK) as F.
    rewrite Forall_forall in F. exact (F a' Ha HL).
Qed.
