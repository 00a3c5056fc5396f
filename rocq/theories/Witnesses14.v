(** Witnesses14.v -- concrete instances of the theorems of PropsChunksAny.v (C47). *)
From Coq Require Import ZArith List Lia Bool Arith ZifyBool ZifyNat Reals Lra.
From Flocq Require Import Core Binary Bits.
From Verif Require Import Base Floats Dtypes Spec ApiSpec Context Api FloatFacts FloatFacts2 PropsQuantize PropsRoundTrip PathSpec PropsPaths
  PropsChunks PropsChunksAny Witnesses Witnesses5 Witnesses7.
Import ListNotations.
Ltac Zify.zify_post_hook ::= Z.div_mod_to_equations.

(** Zero scale (every scaled value is infinite or NaN), stochastic rounding: the sample cut at element 40. *)
Example C47_quantize_any_witness A Aa Ab nt nta ntb oaddr oaddra oaddrb dq pa pb ra rb r : quant_type dq -> few nt -> few nta -> few ntb ->
  length pa = bytes_for dq 40 -> length pb = bytes_for dq 30 ->
  returns part1 pa (quantize_call Aa nta oaddra DT_F32 dq f_zero 2 RM_STOCHASTIC thr4 part1 pa) ra ->
  returns part2 pb (quantize_call Ab ntb oaddrb DT_F32 dq f_zero 2 RM_STOCHASTIC thr4 part2 pb) rb ->
  returns (sample DT_F32) (pa ++ pb) (quantize_call A nt oaddr DT_F32 dq f_zero 2 RM_STOCHASTIC thr4 (sample DT_F32) (pa ++ pb)) r ->
  (r = UB /\ (ra = UB \/ rb = UB)) \/ (exists qa qb, ra = Ok qa /\ rb = Ok qb /\ r = Ok (qa ++ qb)).
Proof.
  intros Hq Hn Hna Hnb Lpa Lpb Ra Rb R. destruct parts_len as [L1 L2]. destruct parts_bytes as [B1 B2]. destruct (sample_len _ f32t) as [SL SN].
  assert (N1 : numel DT_F32 (length part1) = 40) by (rewrite L1; reflexivity). assert (N2 : numel DT_F32 (length part2) = 30) by (rewrite L2; reflexivity).
  rewrite <- parts in R.
  destruct (C47_quantize_any_data A Aa Ab nt nta ntb oaddr oaddra oaddrb DT_F32 dq f_zero 2 RM_STOCHASTIC thr4 thr4 thr4 part1 part2 pa pb 40 ra rb r) as [H|(qa & qb & H1 & H2 & H3 & _)];
    try (left; exact H); try (right; eauto; fail); auto.
  - destruct Hq as [->|[->| ->]]; reflexivity.
  - unfold buffers_ok. rewrite N1, L1. repeat split; auto; try (left; reflexivity); unfold few in *; lia.
  - unfold buffers_ok. rewrite N2, L2. repeat split; auto; try (left; reflexivity); unfold few in *; lia.
  - rewrite parts, SN. apply sample_sizes; auto. left; reflexivity.
  - lia.
  - intros _. split; auto. split; auto. apply quarter_threshold.
  - discriminate.
Qed.
(** One thread whose vector loop covers 64 bytes: with one thread and a 64-element first chunk the elements of the chunk are handled by the same loop as in the whole call. *)
Example same_path_witness : forall i, i < 64 -> same_path AVX2 AVX2 DT_F32 DT_UINT8 0 0 (64 + 64) 64 1 1 i i.
Proof.
  assert (H : forallb (fun i => Bool.eqb (vector_path AVX2 DT_F32 DT_UINT8 0 (64 + 64) 1 i) (vector_path AVX2 DT_F32 DT_UINT8 0 64 1 i)) (seq 0 64) = true) by (vm_compute; reflexivity).
  intros i Hi. rewrite forallb_forall in H. specialize (H i ltac:(apply in_seq; lia)). apply eqb_prop in H. split; [exact H|tauto].
Qed.
(** The fused call with a NaN scale, cut at element 33 (not a byte boundary of uint2/uint4). *)
Definition oddl : mem := firstn 132 (sample DT_F32).
Definition oddr : mem := skipn 132 (sample DT_F32).
Example C47_fused_any_witness A Aa Ab nt nta ntb oaddr oaddra oaddrb dq scale rm op oa ob ra rb r : quant_type dq -> few nt -> few nta -> few ntb ->
  length oa = 132 -> length ob = 148 ->
  returns oddl oa (fused_call Aa nta oaddra DT_F32 dq scale 2 rm op thr4 oddl oa) ra ->
  returns oddr ob (fused_call Ab ntb oaddrb DT_F32 dq scale 2 rm op thr4 oddr ob) rb ->
  returns (sample DT_F32) (oa ++ ob) (fused_call A nt oaddr DT_F32 dq scale 2 rm op thr4 (sample DT_F32) (oa ++ ob)) r ->
  (r = UB /\ (ra = UB \/ rb = UB)) \/ (exists xa xb, ra = Ok xa /\ rb = Ok xb /\ r = Ok (xa ++ xb)).
Proof.
  intros Hq Hn Hna Hnb La Lb Ra Rb R. assert (P : oddl ++ oddr = sample DT_F32) by apply firstn_skipn.
  assert (L1 : length oddl = 132) by (vm_compute; reflexivity). assert (L2 : length oddr = 148) by (vm_compute; reflexivity).
  rewrite <- P in R.
  destruct (C47_fused_any_data A Aa Ab nt nta ntb oaddr oaddra oaddrb DT_F32 dq scale 2 rm op thr4 thr4 thr4 oddl oddr oa ob 33 37 ra rb r) as [H|(xa & xb & H1 & H2 & H3 & _)];
    try (left; exact H); try (right; eauto; fail); auto.
  - apply f32t.
  - rewrite La. unfold sizes_ok, few in *. lia.
  - rewrite Lb. unfold sizes_ok, few in *. lia.
  - rewrite app_length, La, Lb. unfold sizes_ok, few in *. lia.
  - lia.
  - intros _. split; auto. split; auto. apply quarter_threshold.
Qed.
