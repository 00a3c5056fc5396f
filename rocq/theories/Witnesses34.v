(** Witnesses34.v -- a concrete instance of the theorems of PropsIntDot.v (C74). *)
From Coq Require Import ZArith List Lia Bool Arith ZifyBool ZifyNat Reals Lra.
From Flocq Require Import Core Binary Bits.
From Verif Require Import Base Floats Dtypes Spec ApiSpec ConfigSpec Context Api FloatFacts QuantFacts FloatFacts2 PropsQuantize PropsDequantize PropsRoundTrip RoundTripFacts PropsDequantBf16 PropsRoundTripTypes MinMax
  MinMaxFacts ConfigFacts PropsConfig PropsRing PropsAggregate PropsIntDot Witnesses5 Witnesses10 Witnesses Witnesses31 Witnesses32 Witnesses33.
Import ListNotations.
Open Scope nat_scope.

(** {0, 5/4, -3} as uint8 with scale 1/2 and zero point 128 (planned by the caller), nearest rounding *)
Definition planned A nt pk p : operand :=
  {| q_arch := A; q_threads := nt; q_addr := 0; q_float := DT_F32; q_type := DT_UINT8; q_scale := f_half; q_zp := 128; q_mode := RM_NEAREST; q_thr := thr4;
     q_data := part; q_buffer := pk; q_packed := p |}.
(** the same data as uint4 with computed parameters, stochastic rounding *)
Definition computed A nt s zp pk p : operand :=
  {| q_arch := A; q_threads := nt; q_addr := 0; q_float := DT_F32; q_type := DT_UINT4; q_scale := s; q_zp := zp; q_mode := RM_STOCHASTIC; q_thr := thr4;
     q_data := part; q_buffer := pk; q_packed := p |}.
Lemma part_buffers nt dq pk : quant_type dq -> few nt -> length pk = bytes_for dq 3 -> buffers_ok nt DT_F32 dq part pk.
Proof.
  intros Hq Hn L. unfold buffers_ok. change (numel DT_F32 (length part)) with 3. split; [left; reflexivity|]. split; [exact Hq|]. split; [apply part_ok|]. split; [exact L|].
  change (length part) with 12. unfold sizes_ok, few in *. lia.
Qed.
Example C74_witness A A' nt nt' pk pk' s zp p p' : few nt -> few nt' -> length pk = 3 -> length pk' = 2 ->
  compute_quant_config_from_data AVX2 DT_F32 DT_UINT4 part [(0, 3)] = Ok (s, zp) ->
  returns part pk (quantize_call A nt 0 DT_F32 DT_UINT8 f_half 128 RM_NEAREST thr4 part pk) (Ok p) ->
  returns part pk' (quantize_call A' nt' 0 DT_F32 DT_UINT4 s zp RM_STOCHASTIC thr4 part pk') (Ok p') ->
  let q := planned A nt pk p in let w := computed A' nt' s zp pk' p' in
  let acc := ztotal (fun i => (q_code q i - 128) * (q_code w i - zp))%Z 3 in
  (Rabs (/ 2 * val s * IZR acc - (25 / 16 + 9)) <= 17 / 4 * (val s * (1 + / 4096)) + 17 / 4 * (/ 4 + / 8192) + 3 * ((/ 4 + / 8192) * (val s * (1 + / 4096))))%R /\
  (Rabs (/ 2 * IZR (ztotal (q_code q) 3 - 384) - (- (7 / 4))) <= 3 * (/ 4 + / 8192))%R /\ (Z.abs acc <= 3 * (255 * 15))%Z.
Proof.
  intros Hn Hn' L L' EC HQ HQ' q w acc. assert (Hd : float_type DT_F32) by (left; reflexivity). assert (Q8 : quant_type DT_UINT8) by (right; right; reflexivity). assert (Q4 : quant_type DT_UINT4) by (right; left; reflexivity).
  destruct half_ok as [_ Vh].
  assert (C1 : q_call 3 q). { split; [apply part_buffers; auto|]. split; [reflexivity|]. split; [discriminate|exact HQ]. }
  assert (C2 : q_call 3 w). { split; [apply part_buffers; auto|]. split; [reflexivity|]. split; [intros _; apply quarter_threshold|exact HQ']. }
  assert (V : forall i, i < 3 -> q_value q i = sval i /\ q_value w i = sval i).
  { intros i Hi. pose proof (part_at i Hi) as E. split; exact E. }
  assert (F1 : q_fits 3 q).
  { unfold q_fits, q, planned. cbn [q_scale q_zp q_type q_float q_data]. split; [apply half_normal|]. rewrite Vh. split; [lra|]. change (code_max DT_UINT8) with 255%Z. split; [lia|].
    intros i Hi. split; [apply part_ok; auto|]. fold (planned A nt pk p). fold q. destruct (V i Hi) as [-> _]. change (0 - 128)%Z with (-128)%Z. change (255 - 128)%Z with 127%Z.
    destruct i as [|[|[|i]]]; try lia; unfold sval; cbn; lra. }
  assert (F2 : q_computed 3 w).
  { exists AVX2, [(0, 3)], (-3)%R, (5 / 4)%R. split; [discriminate|]. split; [exact part_ok|]. split; [exact cover3|]. split; [exact part_range|]. split; [lra|]. split; [|exact EC].
    split.
    - apply Rle_trans with (bpow radix2 0); [apply bpow_le; lia|change (bpow radix2 0) with 1%R; lra].
    - apply Rle_trans with (bpow radix2 10); [change (bpow radix2 10) with 1024%R; lra|apply bpow_le; lia]. }
  assert (E1 : q_error q = (/ 4 + / 8192)%R) by (unfold q_error, q, planned; cbn [q_scale q_mode]; rewrite Vh; change (bpow radix2 (-12)) with (/ 4096)%R; lra).
  assert (E2 : q_error w = (val s * (1 + / 4096))%R) by (unfold q_error, w, computed; cbn [q_scale q_mode]; change (bpow radix2 (-12)) with (/ 4096)%R; reflexivity).
  destruct (V 0 ltac:(lia)) as [V0 W0]. destruct (V 1 ltac:(lia)) as [V1 W1]. destruct (V 2 ltac:(lia)) as [V2 W2].
  assert (S0 : sval 0 = 0%R) by reflexivity. assert (S1 : sval 1 = (5 / 4)%R) by reflexivity. assert (S2 : sval 2 = (-3)%R) by reflexivity.
  pose proof (C74_integer_dot 3 q w C1 (or_introl F1) C2 (or_intror F2)) as D. cbv zeta in D. change (q_zp q) with 128%Z in D. change (q_zp w) with zp in D. fold acc in D.
  change (val (q_scale q)) with (val f_half) in D. change (val (q_scale w)) with (val s) in D. rewrite E1, E2, Vh in D. unfold dot in D. cbn [total] in D. rewrite V0, V1, V2, W0, W1, W2, S0, S1, S2 in D.
  rewrite Rabs_R0, (Rabs_pos_eq (5 / 4)), (Rabs_left (-3)) in D by lra.
  destruct (C74_integer_sum 3 q C1 (or_introl F1)) as [T _]. cbv zeta in T. change (q_zp q) with 128%Z in T. change (Z.of_nat 3 * 128)%Z with 384%Z in T. change (val (q_scale q)) with (val f_half) in T. rewrite E1, Vh in T.
  replace (total (q_value q) 3) with (- (7 / 4))%R in T by (cbn [total]; rewrite V0, V1, V2, S0, S1, S2; lra). replace (INR 3) with 3%R in T by (rewrite INR_IZR_INZ; reflexivity).
  destruct (C74_accumulator 3 q w C1 (or_introl F1) C2 (or_intror F2)) as [B _]. cbv zeta in B. change (q_zp q) with 128%Z in B. change (q_zp w) with zp in B. fold acc in B.
  split; [|split; [exact T|exact B]].
  replace (25 / 16 + 9)%R with (0 + 0 * 0 + 5 / 4 * (5 / 4) + -3 * -3)%R by field. eapply Rle_trans; [exact D|]. lra.
Qed.
