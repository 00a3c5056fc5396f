(** Witnesses13.v -- concrete instances of the theorems of PropsFusedAny.v and PropsSpike.v (C19, C23, C28). *)
From Coq Require Import ZArith List Lia Bool Arith ZifyBool ZifyNat Reals Lra.
From Flocq Require Import Core Binary Bits.
From Verif Require Import Base Floats Dtypes Spec ApiSpec Context Api FloatFacts FloatFacts2 PropsQuantize PropsDequantize PropsRoundTrip PathSpec PropsPaths PropsConfigRefuted MinMax PropsBadScale
  AnyInputSpec PropsAnyInput PropsAnyThreads PropsFusedAny PropsSpike Witnesses Witnesses4 Witnesses5.
Import ListNotations.

(** scale +infinity and zero point 300: 1.0 * (1/inf) = 0, the code is 255, (255 - 300) * inf = -inf is stored, on every CPU *)
Example C28_complete_witness A nt oaddr rm r : few nt ->
  returns (f32_buf [b1; b5]) (f32_buf [b5; b5]) (fused_call A nt oaddr DT_F32 DT_UINT8 (f32_of_bits binf) 300 rm RO_SET thr4 (f32_buf [b1; b5]) (f32_buf [b5; b5])) r ->
  exists o, r = Ok o /\ slice 4 4 o = le_bytes 4 bninf.
Proof.
  intros Hn HR. assert (Hd : float_type DT_F32) by (left; reflexivity). assert (Hq : quant_type DT_UINT8) by (right; right; reflexivity).
  assert (HS : sizes_ok (length (f32_buf [b5; b5])) (numel DT_F32 (length (f32_buf [b5; b5]))) nt).
  { change (length (f32_buf [b5; b5])) with 8. change (numel DT_F32 8) with 2. unfold sizes_ok, few in *. lia. }
  destruct (C28_complete A nt oaddr DT_F32 DT_UINT8 (f32_of_bits binf) 300 rm RO_SET thr4 (f32_buf [b1; b5]) (f32_buf [b5; b5]) r Hd Hq eq_refl HS ltac:(lia) (fun _ => quarter_threshold) HR) as [_ K].
  change (numel DT_F32 (length (f32_buf [b5; b5]))) with 2 in K.
  assert (G : forall i, i < 2 -> fused_integer DT_UINT8 rm thr4 (f32_of_bits binf) 300 (elem_at DT_F32 (f32_buf [b1; b5]) i) = Some (-45)%Z).
  { intros i Hi. assert (P : product (f32_of_bits binf) (elem_at DT_F32 (f32_buf [b1; b5]) i) = f_zero).
    { rewrite <- (f32_bits_bits (product _ _)), <- (f32_bits_bits f_zero). apply (f_equal f32_of_bits).
      destruct i as [|[|]]; [vm_compute; reflexivity|vm_compute; reflexivity|lia]. }
    unfold fused_integer, fused_code. cbv zeta. rewrite P. destruct f_zero_ok as [F V]. unfold finite in F. rewrite F.
    assert (E : match rm with RM_NEAREST => round_half_away (val f_zero) | RM_STOCHASTIC => stoch_round (val thr4) (val f_zero) end = 0%Z).
    { rewrite V. destruct rm; [apply rha_0|]. unfold stoch_round. rewrite Rabs_R0, Zfloor_IZR. destruct quarter_threshold as [_ [T _]]. rewrite !Rlt_bool_false by lra. reflexivity. }
    rewrite E. reflexivity. }
  destruct K as (o & -> & _ & KC & _); [intros i Hi; rewrite G by auto; discriminate|].
  exists o. split; auto. pose proof (KC 1 (-45)%Z ltac:(lia) (G 1 ltac:(lia))) as E. change (stride DT_F32 * 1) with 4 in E. change (stride DT_F32) with 4 in E. rewrite E. vm_compute. reflexivity.
Qed.
(** a NaN among the data: undefined *)
Example C28_complete_ub_witness A nt oaddr rm op r : few nt ->
  returns (f32_buf [b1; bnan]) (f32_buf [b5; b5]) (fused_call A nt oaddr DT_F32 DT_UINT8 f_one 3 rm op thr4 (f32_buf [b1; bnan]) (f32_buf [b5; b5])) r -> r = UB.
Proof.
  intros Hn HR. assert (Hd : float_type DT_F32) by (left; reflexivity). assert (Hq : quant_type DT_UINT8) by (right; right; reflexivity).
  assert (HS : sizes_ok (length (f32_buf [b5; b5])) (numel DT_F32 (length (f32_buf [b5; b5]))) nt).
  { change (length (f32_buf [b5; b5])) with 8. change (numel DT_F32 8) with 2. unfold sizes_ok, few in *. lia. }
  destruct (C28_complete A nt oaddr DT_F32 DT_UINT8 f_one 3 rm op thr4 (f32_buf [b1; bnan]) (f32_buf [b5; b5]) r Hd Hq eq_refl HS ltac:(lia) (fun _ => quarter_threshold) HR) as [K _].
  apply K. exists 1. split; [vm_compute; lia|]. unfold fused_integer, fused_code. cbv zeta.
  assert (F : is_finite 24 128 (product f_one (elem_at DT_F32 (f32_buf [b1; bnan]) 1)) = false) by (vm_compute; reflexivity). rewrite F. reflexivity.
Qed.
Example C28_stochastic_witness A A1 A2 nt nt1 nt2 oaddr oaddr1 oaddr2 dq r1 r2 : quant_type dq -> few nt -> few nt1 -> few nt2 ->
  returns (sample DT_F32) (sample DT_F32) (fused_call A nt oaddr DT_F32 dq f_half 2 RM_STOCHASTIC RO_SET thr4 (sample DT_F32) (sample DT_F32)) r1 ->
  exists p, returns (sample DT_F32) (sample_out dq) (quantize_call A1 nt1 oaddr1 DT_F32 dq f_half 2 RM_STOCHASTIC thr4 (sample DT_F32) (sample_out dq)) (Ok p) /\
    (returns (p ++ [0%Z]) (sample DT_F32) (dequantize_call A2 nt2 oaddr2 dq DT_F32 f_half 2 RO_SET (length p) (sample DT_F32)) r2 -> r1 = r2).
Proof.
  intros Hq Hn Hn1 Hn2 HF. assert (Hd : float_type DT_F32) by (left; reflexivity). destruct (sample_len _ Hd) as [_ HL].
  destruct (quant_sample A1 nt1 oaddr1 DT_F32 dq RM_STOCHASTIC Hd Hq Hn1) as (p & HR & _). exists p. split; auto. intros HD.
  assert (HS : forall m, few m -> sizes_ok (length (sample DT_F32)) (numel DT_F32 (length (sample DT_F32))) m) by (intros m Hm; rewrite HL; apply sample_sizes; auto).
  assert (HX : Forall is_byte [0%Z]) by (apply Forall_cons; [unfold is_byte; lia|apply Forall_nil]).
  assert (Z30 : (Z.abs 2 <= 2 ^ 30)%Z) by lia.
  destruct (C28_stochastic_any_data A A1 A2 nt nt1 nt2 oaddr oaddr1 oaddr2 dq f_half 2 RO_SET thr4 (sample DT_F32) (sample_out dq) [0%Z] (sample DT_F32) (Ok p) r1 r2
    (sample_buffers nt1 _ _ Hd Hq Hn1) eq_refl (HS nt Hn) (HS nt2 Hn2) Z30 quarter_threshold ltac:(discriminate) ltac:(discriminate) HX ltac:(discriminate) HF HR) as [[E _]|(p' & o & _ & -> & ->)].
  - intros q E. injection E as <-. exact HD.
  - discriminate.
  - reflexivity.
Qed.
Lemma sample_widened i : i < 70 -> f32_at (sample DT_F32) i = f32_of_bits (bf16_at (sample DT_BF16) i * 65536).
Proof.
  intros Hi. pose proof (sample_bits_at DT_F32 i (or_introl eq_refl) Hi) as E. pose proof (sample_bits_at DT_BF16 i (or_intror eq_refl) Hi) as E'. cbn [elem_at] in E, E'. congruence.
Qed.
(** with scale 0 every product is infinite or NaN: both calls are undefined, in any mode *)
Example C19_stochastic_witness A A' nt nt' oaddr oaddr' dout r r' : quant_type dout -> few nt -> few nt' ->
  returns (sample DT_BF16) (sample_out dout) (quantize_call A nt oaddr DT_BF16 dout f_zero 2 RM_STOCHASTIC thr4 (sample DT_BF16) (sample_out dout)) r ->
  returns (sample DT_F32) (sample_out dout) (quantize_call A' nt' oaddr' DT_F32 dout f_zero 2 RM_STOCHASTIC thr4 (sample DT_F32) (sample_out dout)) r' -> r = r'.
Proof.
  intros Hq Hn Hn' HR HR'. assert (Hd : float_type DT_F32) by (left; reflexivity). assert (Hd' : float_type DT_BF16) by (right; reflexivity).
  exact (C19_stochastic_any_data A A' nt nt' oaddr oaddr' dout f_zero 2 thr4 (sample DT_BF16) (sample DT_F32) _ _ 70 r r' eq_refl eq_refl
    (sample_buffers nt _ _ Hd' Hq Hn) (sample_buffers nt' _ _ Hd Hq Hn') sample_widened quarter_threshold ltac:(lia) HR HR').
Qed.
Example C19_nearest_witness nt oaddr oaddr' dout r r' : quant_type dout -> few nt ->
  returns (sample DT_BF16) (sample_out dout) (quantize_call GENERIC nt oaddr DT_BF16 dout f_half 2 RM_NEAREST thr4 (sample DT_BF16) (sample_out dout)) r ->
  returns (sample DT_F32) (sample_out dout) (quantize_call GENERIC nt oaddr' DT_F32 dout f_half 2 RM_NEAREST thr4 (sample DT_F32) (sample_out dout)) r' ->
  r = r' \/ (dout = DT_UINT2 /\ r = UB).
Proof.
  intros Hq Hn HR HR'. assert (Hd : float_type DT_F32) by (left; reflexivity). assert (Hd' : float_type DT_BF16) by (right; reflexivity).
  refine (C19_nearest_any_data GENERIC GENERIC nt nt oaddr oaddr' dout f_half 2 thr4 (sample DT_BF16) (sample DT_F32) _ _ 70 r r' eq_refl eq_refl
    (sample_buffers nt _ _ Hd' Hq Hn) (sample_buffers nt _ _ Hd Hq Hn) sample_widened ltac:(lia) ltac:(lia) _ HR HR').
  intros i Hi v. assert (N : forall d oa, vector_path GENERIC d dout oa 70 nt i = false).
  { intros d oa. unfold vector_path. induction (seq 0 nt) as [|t l IH]; [reflexivity|]. cbn [existsb]. rewrite IH, orb_false_r. apply andb_false_iff. right. destruct d, dout; reflexivity. }
  unfold v. rewrite !N. split; [reflexivity|discriminate].
Qed.
(** the calls of C23_sse42_refuted exist *)
Example C23_sse42_witness A A2 nt nt2 oaddr oaddr2 : few nt -> few nt2 ->
  exists scale zp p o, compute_quant_config_from_data SSE42 DT_F32 DT_UINT8 spike [(0, 16)] = Ok (scale, zp) /\
    returns spike (repeat 0%Z 16) (quantize_call A nt oaddr DT_F32 DT_UINT8 scale zp RM_NEAREST thr4 spike (repeat 0%Z 16)) (Ok p) /\
    returns (p ++ []) (repeat 0%Z 64) (dequantize_call A2 nt2 oaddr2 DT_UINT8 DT_F32 scale zp RO_SET (length p) (repeat 0%Z 64)) (Ok o) /\ val (f32_at o 3) = 128%R.
Proof.
  intros Hn Hn2. destruct (compute_quant_config_from_data SSE42 DT_F32 DT_UINT8 spike [(0, 16)]) as [[scale zp]| |] eqn:E; try (exfalso; revert E; vm_compute; discriminate).
  destruct (spike_quantizes A nt oaddr thr4 (repeat 0%Z 16) scale zp E eq_refl) as (p & HQ & Lp); [unfold sizes_ok, few in *; lia|].
  destruct (returns_total (p ++ []) (repeat 0%Z 64) (dequantize_call A2 nt2 oaddr2 DT_UINT8 DT_F32 scale zp RO_SET (length p) (repeat 0%Z 64))) as [r HD].
  destruct (C23_sse42_refuted A nt oaddr A2 nt2 oaddr2 thr4 (repeat 0%Z 16) p [] (repeat 0%Z 64) r scale zp) as (_ & _ & _ & o & -> & V); auto;
    try (unfold sizes_ok, few in *; lia).
  exists scale, zp, p, o. auto.
Qed.
