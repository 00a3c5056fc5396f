(** Witnesses36.v -- concrete instances of the theorems of PropsAccumOrder.v (C76). *)
From Coq Require Import ZArith List Lia Bool Arith ZifyBool ZifyNat Reals Lra Permutation.
From Flocq Require Import Core Binary Bits.
From Verif Require Import Base Floats Dtypes Spec ApiSpec ConfigSpec QuantKernels Context Api FloatFacts FloatFacts2 PropsQuantize PropsDequantize PropsRoundTrip RoundTripFacts PropsRoundTripTypes MinMax ConfigFacts PropsConfig
  PropsAccumulate PropsIdempotent PropsAccumOrder Witnesses Witnesses5 Witnesses10 Witnesses31 Witnesses35.
Import ListNotations.
Open Scope nat_scope.

(** the uint8, uint4 and uint2 buffers of [three] arrive in another order at a receiver with other CPUs *)
Definition shuffled nt : list contribution := [give NEON nt 8 DT_UINT2; give SSE42 (nt + 1) 4 DT_UINT8; give AVX512BF16 (nt + 2) 0 DT_UINT4].
Lemma shuffled_ok nt : 1 <= nt <= 900 -> Forall (contribution_ok (sample DT_F32)) (shuffled nt).
Proof. intros Hn. unfold shuffled. apply Forall_cons; [|apply Forall_cons; [|apply Forall_cons; [|apply Forall_nil]]]; apply give_ok; unfold quant_type, few; auto; lia. Qed.
Lemma shuffled_same nt : same_buffers (three nt) (shuffled nt).
Proof.
  unfold same_buffers, three, shuffled. cbn [map]. unfold payload. cbn [give c_type c_scale c_zp c_bytes].
  set (a := (DT_UINT8, _, _, _)). set (b := (DT_UINT4, _, _, _)). set (c := (DT_UINT2, _, _, _)).
  apply perm_trans with [a; c; b]; [apply perm_skip, perm_swap|apply perm_swap].
Qed.
Lemma three_in_range nt nt' i : i < 68 -> accumulates (numel DT_F32 (length (sample DT_F32))) (three nt) i /\ accumulates (numel DT_F32 (length (sample DT_F32))) (shuffled nt') i.
Proof. destruct (sample_len DT_F32 (or_introl eq_refl)) as [_ ->]. intros H. split; split; try lia; left; cbn; lia. Qed.
Example C76_exact_witness nt nt' r r' : 1 <= nt <= 900 -> 1 <= nt' <= 900 -> chain add_step (three nt) (sample DT_F32) r -> chain add_step (shuffled nt') (sample DT_F32) r' ->
  exists o o', r = Ok o /\ r' = Ok o' /\ val (f32_at o 3) = val (f32_at o' 3).
Proof.
  intros Hn Hn' C1 C2. destruct half_ok as [_ V]. destruct (three_in_range nt nt' 3 ltac:(lia)) as [A1 A2].
  destruct (sample_elem DT_F32 3 (or_introl eq_refl) ltac:(lia)) as [F3 V3]. change (elem_at DT_F32 (sample DT_F32) 3) with (f32_at (sample DT_F32) 3) in *.
  assert (E' : zsum (fun c => Z.abs (c_int c 3 * 2)) (three nt) = 222%Z) by (vm_compute; reflexivity).
  destruct (C76_exact_any_order (three nt) (shuffled nt') (sample DT_F32) (sample DT_F32) r r' (-2) (fun _ => 2%Z) 3 800 ltac:(lia) (shuffled_same nt) (three_ok nt Hn) (shuffled_ok nt' Hn')) as (o & o' & E1 & E2 & _ & E3); auto.
  - assert (G : forall A m oa dq, (Z.abs (c_zp (give A m oa dq)) <= 2 ^ 19)%Z /\ val (c_scale (give A m oa dq)) = (IZR 2 * bpow radix2 (-2))%R).
    { intros. split; [cbn; lia|]. cbn [c_scale give]. rewrite V. cbn; lra. }
    unfold three. apply Forall_cons; [|apply Forall_cons; [|apply Forall_cons; [|apply Forall_nil]]]; apply G.
  - rewrite V3. unfold sval. cbn; lra.
  - rewrite E'. change (2 ^ 24)%Z with 16777216%Z. lia.
  - exists o, o'. auto.
Qed.
Lemma give_small A nt oaddr dq i : quant_type dq -> few nt -> finite (c_value (give A nt oaddr dq) i) /\ (Rabs (decoded (give A nt oaddr dq) i) <= 130)%R.
Proof.
  intros Hq Hn. destruct half_ok as [_ V]. destruct (c_value_rel (sample DT_F32) (give A nt oaddr dq) i (give_ok A nt oaddr dq Hq Hn)) as [F (d & Hd & E)].
  { split; [exact half_normal|]. cbn [give c_zp]. lia. }
  split; [exact F|]. unfold decoded. rewrite E. unfold c_exact. change (c_scale (give A nt oaddr dq)) with f_half. rewrite V.
  assert (B : (Rabs (IZR (c_int (give A nt oaddr dq) i)) <= IZR 257)%R).
  { apply abs_IZR_le. change (c_int (give A nt oaddr dq) i) with (code_at dq (packed dq) i - 2)%Z. pose proof (code_at_lt dq (packed dq) i Hq) as L. clear - L. set (q := code_at dq (packed dq) i) in *. clearbody q. lia. }
  apply Rabs_le_inv in B. apply Rabs_le_inv in Hd. unfold u_f32 in Hd. set (z := IZR (c_int (give A nt oaddr dq) i)) in *. replace (z * / 2 * (1 + d))%R with (z * (/ 2 * (1 + d)))%R by ring.
  rewrite Rabs_mult. apply Rle_trans with (257 * (505 / 1000))%R; [|lra]. apply Rmult_le_compat; try apply Rabs_pos; apply Rabs_le; lra.
Qed.
Example C76_any_order_witness nt nt' r r' : 1 <= nt <= 900 -> 1 <= nt' <= 900 -> chain add_step (three nt) (sample DT_F32) r -> chain add_step (shuffled nt') (sample DT_F32) r' ->
  exists o o', r = Ok o /\ r' = Ok o' /\ (Rabs (val (f32_at o 5) - val (f32_at o' 5)) <= / 1000)%R.
Proof.
  intros Hn Hn' C1 C2. destruct (three_in_range nt nt' 5 ltac:(lia)) as [A1 A2].
  destruct (sample_elem DT_F32 5 (or_introl eq_refl) ltac:(lia)) as [F5 V5]. change (elem_at DT_F32 (sample DT_F32) 5) with (f32_at (sample DT_F32) 5) in *.
  assert (Q8 : quant_type DT_UINT8) by (right; right; reflexivity). assert (Q4 : quant_type DT_UINT4) by (right; left; reflexivity). assert (Q2 : quant_type DT_UINT2) by (left; reflexivity).
  destruct (give_small AVX512F nt 0 DT_UINT8 5 Q8 ltac:(unfold few; lia)) as [G1 B1]. destruct (give_small GENERIC (nt + 1) 16 DT_UINT4 5 Q4 ltac:(unfold few; lia)) as [G2 B2]. destruct (give_small AVX2 (nt + 2) 8 DT_UINT2 5 Q2 ltac:(unfold few; lia)) as [G3 B3].
  assert (M : (0 <= rsum (fun c => Rabs (decoded c 5)) (three nt) <= 390)%R).
  { unfold three. rewrite !rsum_cons. unfold rsum; cbn [fold_right]. pose proof (Rabs_pos (decoded (give AVX512F nt 0 DT_UINT8) 5)). pose proof (Rabs_pos (decoded (give GENERIC (nt + 1) 16 DT_UINT4) 5)). pose proof (Rabs_pos (decoded (give AVX2 (nt + 2) 8 DT_UINT2) 5)). lra. }
  assert (X5 : (Rabs (val (f32_at (sample DT_F32) 5)) <= 100)%R) by (rewrite V5; unfold sval; cbn; apply Rabs_le; lra).
  pose proof (Rabs_pos (val (f32_at (sample DT_F32) 5))) as P5.
  assert (U3 : (1 <= (1 + u_f32) ^ 3 <= 1 + / 5000000)%R) by (unfold u_f32; cbn [pow]; lra).
  destruct (C76_any_order (three nt) (shuffled nt') (sample DT_F32) (sample DT_F32) r r' 5 (shuffled_same nt) (three_ok nt Hn) (shuffled_ok nt' Hn') C1 C2 A1 A2 eq_refl F5) as (o & o' & E1 & E2 & _ & _ & D).
  - unfold three. apply Forall_cons; [exact G1|]. apply Forall_cons; [exact G2|]. apply Forall_cons; [exact G3|apply Forall_nil].
  - change (length (three nt)) with 3. set (s := rsum _ _) in *. apply Rle_trans with 512%R; [|change 512%R with (bpow radix2 9); apply bpow_le; lia].
    apply Rle_trans with (490 * (1 + / 5000000))%R; [apply Rmult_le_compat; lra|lra].
  - exists o, o'. split; auto. split; auto. change (length (three nt)) with 3 in D. set (s := rsum _ _) in *. eapply Rle_trans; [exact D|].
    apply Rle_trans with (2 * / 5000000 * 490)%R; [apply Rmult_le_compat; lra|lra].
Qed.

(** three uint8 buffers of one element: 2^24, 1 and -2^24 *)
Definition f_2_24 : f32 := f32_of_bits 0x4b800000.
Lemma f_2_24_ok : finite f_2_24 /\ val f_2_24 = 16777216%R.
Proof. split; [reflexivity|]. unfold val, f_2_24; cbn; unfold F2R; cbn; lra. Qed.
Definition single A nt s zp : contribution := {| c_arch := A; c_threads := nt; c_oaddr := 0; c_type := DT_UINT8; c_scale := s; c_zp := zp; c_bytes := [1%Z]; c_size := 1 |}.
Definition zero4 : mem := repeat 0%Z 4.
Lemma single_ok A nt s zp : 1 <= nt <= 900 -> finite s -> (Z.abs zp <= 2 ^ 30)%Z -> contribution_ok zero4 (single A nt s zp).
Proof.
  intros Hn Fs Hz. split; [|split; [exact Hz|exact Fs]]. unfold dq_buffers, single. cbn [c_threads c_type c_bytes c_size].
  split; [right; right; reflexivity|]. split; [left; reflexivity|]. split; [repeat constructor; unfold is_byte; lia|]. split; [reflexivity|]. split; [cbn; lia|].
  split; [change (length zero4) with 4; change (numel DT_F32 4) with 1; unfold sizes_ok; lia|discriminate].
Qed.
Lemma single_value A nt s zp k m : (0 <= k < 3)%Z -> zp = (1 - k + 1)%Z -> finite s -> val s = IZR m -> (m = 1 \/ m = 16777216)%Z ->
  finite (c_value (single A nt s zp) 0) /\ decoded (single A nt s zp) 0 = (IZR (k - 1) * IZR m)%R.
Proof.
  intros Hk -> Fs Vs Hm.
  assert (NS : normal_scale s).
  { split; [exact Fs|]. rewrite Vs. destruct Hm as [-> | ->]; rewrite Rabs_pos_eq by lra; split.
    - change 1%R with (bpow radix2 0). apply bpow_le. lia.
    - change 1%R with (bpow radix2 0). apply bpow_le. lia.
    - apply Rle_trans with (bpow radix2 0); [apply bpow_le; lia|change (bpow radix2 0) with 1%R; lra].
    - change 16777216%R with (bpow radix2 24). apply bpow_le. lia. }
  destruct (dequant_value_ok s (1 - k + 1) 1 NS ltac:(lia)) as [F V].
  change (dequant_value s (1 - k + 1) 1) with (c_value (single A nt s (1 - k + 1)) 0) in F, V. split; [exact F|]. unfold decoded. rewrite V, Vs.
  replace (1 - (1 - k + 1))%Z with (k - 1)%Z by lia. rewrite <- mult_IZR. apply RN32_fmt. destruct Hm as [-> | ->].
  - apply fmt32_int. lia.
  - rewrite mult_IZR. change (IZR 16777216) with (bpow radix2 24). apply fmt32_scaled; lia.
Qed.
Example C76_order_witness A A' A'' nt : 1 <= nt <= 900 -> exists o o',
  chain add_step [single A nt f_2_24 0; single A' nt f_one 0; single A'' nt f_2_24 2] zero4 (Ok o) /\
  chain add_step [single A nt f_2_24 0; single A'' nt f_2_24 2; single A' nt f_one 0] zero4 (Ok o') /\
  val (f32_at o 0) = 0%R /\ val (f32_at o' 0) = 1%R.
Proof.
  intros Hn. destruct f_2_24_ok as [Fb Vb], f_one_ok as [F1 V1].
  assert (TOT : forall c m, exists r, add_step c m r) by (intros c m; apply returns_total).
  destruct (C55_chain_exists add_step TOT [single A nt f_2_24 0; single A' nt f_one 0; single A'' nt f_2_24 2] zero4) as [r C1].
  destruct (C55_chain_exists add_step TOT [single A nt f_2_24 0; single A'' nt f_2_24 2; single A' nt f_one 0] zero4) as [r' C2].
  destruct (single_value A nt f_2_24 0 2 16777216 ltac:(lia) eq_refl Fb Vb ltac:(auto)) as [Ga Da].
  destruct (single_value A' nt f_one 0 2 1 ltac:(lia) eq_refl F1 V1 ltac:(auto)) as [Gb Db].
  destruct (single_value A'' nt f_2_24 2 0 16777216 ltac:(lia) eq_refl Fb Vb ltac:(auto)) as [Gc Dc].
  destruct (C76_order_refuted (single A nt f_2_24 0) (single A' nt f_one 0) (single A'' nt f_2_24 2) zero4 0 r r') as (o & o' & -> & -> & X1 & X2); auto.
  1: apply Forall_cons; [|apply Forall_cons; [|apply Forall_cons; [|apply Forall_nil]]]; apply single_ok; auto; lia.
  1,2: split; [cbn; lia|right; repeat constructor; discriminate].
  all: try solve [apply by_bits; vm_compute; reflexivity].
  all: try (rewrite Da; change (2 - 1)%Z with 1%Z; lra).
  all: try (rewrite Db; change (2 - 1)%Z with 1%Z; lra).
  all: try (rewrite Dc; change (0 - 1)%Z with (-1)%Z; lra).
  exists o, o'. auto.
Qed.
