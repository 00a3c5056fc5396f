(** Witnesses19.v -- concrete calls that meet the hypotheses of the theorems of PropsInPlace.v. *)
From Coq Require Import ZArith List Lia Bool Arith ZifyBool ZifyNat Reals Lra.
From Verif Require Import Base Floats Simd Dtypes Spec ApiSpec QuantKernels DequantKernels ExecFacts FloatFacts QuantFacts Context Api PropsQuantize PropsDequantize
  PropsRoundTrip Arena ArenaFacts PropsArena PropsInPlace WeakMem PropsAlign Witnesses Witnesses3.
Import ListNotations.

(** The memory of Witnesses3.v: 70 floats at 0.  Fused over itself, any number of threads up to 1000; quantized over itself on one thread. *)
Definition fused_self (A : arch) (nt : nat) : request := mk_request A nt 0 280 0 0 280 (Do_fused DT_F32 DT_UINT8 f_half 2 RM_NEAREST RO_ADD thr4).
Definition u8_self (A : arch) : request := mk_request A 1 0 280 0 0 70 (Do_quantize DT_F32 DT_UINT8 f_half 2 RM_NEAREST thr4).

Example C59_fused_witness base A nt : few nt ->
  (exists r, concurrently base [fused_self A nt] arena r) /\
  forall r, concurrently base [fused_self A nt] arena r ->
  exists m', r = Ok m' /\ length m' = 680 /\
    (forall i, i < 70 -> slice (4 * i) 4 (slice 0 280 m') =
       le_bytes 4 (bits_of_f32 (fadd (f32_at (sample DT_F32) i) (fmul (f32_of_Z (clamp 0 255 (skc i + 2) - 2)) f_half)))) /\
    (forall j, 280 <= j -> nth j m' 0%Z = nth j arena 0%Z).
Proof.
  intros Hn. split; [apply concurrently_total|]. intros r HR. assert (Hd : float_type DT_F32) by (left; reflexivity).
  destruct (C59_documented_results base (fused_self A nt) arena r) as (m' & -> & L & D & F); auto.
  - split; rewrite arena_length; cbn; lia.
  - apply (sample_sizes DT_F32 nt Hd Hn).
  - apply (fused_ok A nt Hn).
  - left. do 7 eexists. split; [reflexivity|]. left. reflexivity.
  - exists m'. split; auto. split; [rewrite L; apply arena_length|]. split.
    + intros i Hi. unfold request_done, fused_self in D. cbn [q_cmd q_osize] in D. unfold input_of, output_of in D. cbn [q_in q_out q_isize q_osize] in D.
      rewrite arena_input in D. specialize (D i Hi). cbv zeta in D. rewrite D. do 4 f_equal.
      cbn [expected_code]. change (f32_at (sample DT_F32) i) with (elem_at DT_F32 (sample DT_F32) i). rewrite sample_code by auto. reflexivity.
    + intros j Hj. apply F. right. cbn. exact Hj.
Qed.
Example C59_quantize_witness base A :
  (exists r, concurrently base [u8_self A] arena r) /\
  forall r, concurrently base [u8_self A] arena r ->
  exists m', r = Ok m' /\ length m' = 680 /\ (forall i, i < 70 -> code_at DT_UINT8 (slice 0 70 m') i = clamp 0 255 (skc i + 2)) /\
    (forall j, 70 <= j -> nth j m' 0%Z = nth j arena 0%Z).
Proof.
  assert (Hn : few 1) by (unfold few; lia). split; [apply concurrently_total|]. intros r HR. assert (Hd : float_type DT_F32) by (left; reflexivity).
  assert (Hq : quant_type DT_UINT8) by (right; right; reflexivity).
  destruct (C59_documented_results base (u8_self A) arena r) as (m' & -> & L & D & F); auto.
  - split; rewrite arena_length; cbn; lia.
  - apply (sample_sizes DT_F32 1 Hd Hn).
  - destruct (to_u8_ok A 1 Hn) as (X1 & (B1 & B2 & B3 & B4 & B5) & X3). unfold request_ok, u8_self. cbn [q_cmd q_extra q_threads q_isize q_arch].
    split; auto. split; [|exact X3]. unfold buffers_ok. split; auto.
  - right. do 6 eexists. split; [reflexivity|]. split; [reflexivity|cbn; lia].
  - exists m'. split; auto. split; [rewrite L; apply arena_length|]. split.
    + intros i Hi. unfold request_done, u8_self in D. cbn [q_cmd q_isize] in D. unfold input_of, output_of in D. cbn [q_in q_out q_isize q_osize] in D.
      rewrite arena_input in D. specialize (D i Hi). rewrite D. cbn [expected_code]. rewrite sample_code by auto. reflexivity.
    + intros j Hj. apply F. right. cbn. exact Hj.
Qed.

(** ** C03: 70 floats to uint8 on AVX2 at an output address that is not a multiple of 32, one thread: a streaming store exists, at offset 27 *)
Example C03_stream_witness thr : exists jobs j a,
  quantize AVX2 1 5 280 DT_F32 70 DT_UINT8 f_half 2 RM_NEAREST thr = Ok jobs /\ In j jobs /\ In a j /\ WeakMem.streams AVX2 DT_F32 DT_UINT8 RM_NEAREST a = true /\
  a_ooff a = 27 /\ ((5 + Z.of_nat (a_ooff a)) mod PropsAlign.stream_width AVX2 = 0)%Z.
Proof.
  assert (Hd : float_type DT_F32) by (left; reflexivity). assert (Hq : quant_type DT_UINT8) by (right; right; reflexivity).
  assert (HS : sizes_ok 280 (numel DT_F32 280) 1) by (apply (sample_sizes DT_F32 1 Hd); unfold few; lia).
  eexists _, _, _. split; [exact (quantize_jobs AVX2 1 5 280 DT_F32 70 DT_UINT8 f_half 2 RM_NEAREST thr Hd Hq eq_refl HS)|].
  split; [left; reflexivity|]. split; [do 27 right; left; reflexivity|]. split; [reflexivity|split; reflexivity].
Qed.
