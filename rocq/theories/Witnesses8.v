(** Witnesses8.v -- concrete instances of the theorems of PropsWeak.v (C51). *)
From Coq Require Import ZArith List Lia Bool Arith ZifyBool ZifyNat Reals Lra.
From Flocq Require Import Core Binary Bits.
From Verif Require Import Base Floats Dtypes Spec ApiSpec Context Api FloatFacts PropsQuantize PropsDequantize PathSpec WeakMem WeakFacts PropsWeak Witnesses.
Import ListNotations.

(** the 70 sample elements, any kernel set, any number of threads: the call returns, and the caller finds the codes *)
Example C51_witness A nt oaddr din dout thr : float_type din -> quant_type dout -> few nt ->
  exists m, call_returns (streams A din dout RM_NEAREST) Draining (sample din) (sample_out dout)
              (quantize_call A nt oaddr din dout f_half 2 RM_NEAREST thr (sample din) (sample_out dout)) m /\
    length m = length (sample_out dout).
Proof.
  intros Hd Hq Hn. destruct (returns_total (sample din) (sample_out dout) (quantize_call A nt oaddr din dout f_half 2 RM_NEAREST thr (sample din) (sample_out dout))) as [r HR].
  assert (Z22 : (Z.abs 2 <= 2 ^ 22)%Z) by (cbn; lia). pose proof (sample_buffers nt din dout Hd Hq Hn) as HB.
  destruct (C01_quantize_nearest A nt oaddr din dout f_half 2 thr _ _ r HB half_good Z22) as (o & -> & L & _); auto.
  - intros i Hi. destruct (sample_len din Hd) as [_ E]. rewrite E in Hi. apply (sample_input A din RM_NEAREST i 2); auto.
  - destruct HB as (_ & _ & _ & Hl & HS). unfold quantize_call in *.
    destruct (C51_quantize_draining A nt oaddr din dout f_half 2 RM_NEAREST thr _ _ _ _ o Hd Hq Hl HS HR) as [F (m & Hm)].
    exists m. split; auto. rewrite (F m Hm). auto.
Qed.

Lemma interleave_one {X} (l : list X) : interleave [l] l.
Proof. induction l as [|x l IH]; [constructor; auto|]. apply (il_step [] x l [] l). exact IH. Qed.
Definition f32t : float_type DT_F32 := or_introl eq_refl.

(** 64 ones on AVX-512 with a 16-byte aligned output: with a plain completion flag the caller can find nothing written at all *)
Definition ones : mem := concat (repeat (le_bytes 4 0x3f800000) 64).
Example C51_nothing_visible thr : let out := repeat 170%Z 64 in
  let call := quantize_call AVX512F 1 0 DT_F32 DT_UINT8 f_one 0 RM_NEAREST thr ones out in
  returns ones out call (Ok (repeat 1%Z 64)) /\ call_returns (streams AVX512F DT_F32 DT_UINT8 RM_NEAREST) Plain_store ones out call out.
Proof.
  intros out call. assert (Hq : quant_type DT_UINT8) by (right; right; reflexivity). assert (L : length ones = 256) by reflexivity.
  assert (HS : sizes_ok (length ones) (numel DT_F32 (length ones)) 1) by (rewrite L; change (numel DT_F32 256) with 64; unfold sizes_ok; lia).
  assert (HR : returns ones out call (Ok (repeat 1%Z 64))).
  { unfold call, quantize_call. rewrite quantize_jobs; auto; [|left; reflexivity]. rewrite L. change (numel DT_F32 256) with 64. cbn [seq map thr_of].
    match goal with |- returns _ _ (Ok [?l]) _ => assert (E : run_trace ones l out = Ok (repeat 1%Z 64)) by (vm_compute; reflexivity); rewrite <- E; constructor; apply interleave_one end. }
  split; auto. destruct (C51_plain_signal_refuted AVX512F 1 0 DT_F32 f_one 0 thr (length ones) (length out) ones out (repeat 1%Z 64)) as (m & Hm & HN); auto.
  - left. repeat split; discriminate.
  - assert (m = out) as <-; auto. change (returns ones out call (Ok (repeat 1%Z 64))) in HR.
    pose proof (fun k => C51_plain_late_bytes AVX512F 1 0 DT_F32 DT_UINT8 f_one 0 RM_NEAREST thr (length ones) (length out) ones out (repeat 1%Z 64) m k f32t Hq ltac:(reflexivity) HS HR Hm) as T.
    apply ExecFacts.list_ext; [apply (T 0)|]. intros k Hk. destruct (T 0) as [Lm _]. rewrite Lm in Hk. change (length out) with 64 in Hk.
    rewrite HN. assert (V : forallb (vector_path AVX512F DT_F32 DT_UINT8 0 (numel DT_F32 (length ones)) 1) (seq 0 64) = true) by (vm_compute; reflexivity).
    rewrite forallb_forall in V. rewrite V by (apply in_seq; lia). reflexivity.
Qed.
