(** Witnesses10.v -- concrete instances of the theorems of PropsAccumulate.v (C55). *)
From Coq Require Import ZArith List Lia Bool Arith ZifyBool ZifyNat Reals Lra.
From Flocq Require Import Core Binary Bits.
From Verif Require Import Base Floats Dtypes Spec ApiSpec ConfigSpec Context Api FloatFacts FloatFacts2 PropsQuantize PropsDequantize PropsRoundTrip RoundTripFacts PropsRoundTripTypes MinMax ConfigFacts PropsConfig
  PropsAccumulate Witnesses Witnesses5.
Import ListNotations.

(** A uint8, a uint4 and a uint2 buffer of 70 elements, scale 1/2, zero point 2, added by three different contexts to the 70 sample elements (multiples of 1/4). *)
Definition give A nt oaddr dq : contribution :=
  {| c_arch := A; c_threads := nt; c_oaddr := oaddr; c_type := dq; c_scale := f_half; c_zp := 2; c_bytes := packed dq; c_size := bytes_for dq 70 |}.
Lemma give_ok A nt oaddr dq : quant_type dq -> few nt -> contribution_ok (sample DT_F32) (give A nt oaddr dq).
Proof. intros Hq Hn. split; [apply (sample_dq nt dq DT_F32); auto; left; reflexivity|]. split; [cbn; lia|apply half_ok]. Qed.
Definition three nt : list contribution := [give AVX512F nt 0 DT_UINT8; give GENERIC (nt + 1) 16 DT_UINT4; give AVX2 (nt + 2) 8 DT_UINT2].
Lemma three_ok nt : 1 <= nt <= 900 -> Forall (contribution_ok (sample DT_F32)) (three nt).
Proof. intros Hn. unfold three. apply Forall_cons; [|apply Forall_cons; [|apply Forall_cons; [|apply Forall_nil]]]; apply give_ok; unfold quant_type, few; auto; lia. Qed.
Example C55_exact_witness nt r : 1 <= nt <= 900 -> chain add_step (three nt) (sample DT_F32) r ->
  exists o, r = Ok o /\ finite (f32_at o 3) /\ val (f32_at o 3) = (507 / 2)%R.
Proof.
  intros Hn HC. assert (Hd : float_type DT_F32) by (left; reflexivity). destruct (sample_len DT_F32 Hd) as [_ SN]. destruct half_ok as [_ V].
  destruct (C55_exact_sum (three nt) (sample DT_F32) r (-2) (fun _ => 2%Z)) as (o & -> & _ & HO); auto using three_ok; try lia.
  - assert (G : forall A m oa dq, (Z.abs (c_zp (give A m oa dq)) <= 2 ^ 19)%Z /\ val (c_scale (give A m oa dq)) = (IZR 2 * bpow radix2 (-2))%R).
    { intros. split; [cbn; lia|]. cbn [c_scale give]. rewrite V. cbn; lra. }
    unfold three. apply Forall_cons; [|apply Forall_cons; [|apply Forall_cons; [|apply Forall_nil]]]; apply G.
  - exists o. split; auto. destruct (sample_elem DT_F32 3 Hd ltac:(lia)) as [F3 V3]. change (elem_at DT_F32 (sample DT_F32) 3) with (f32_at (sample DT_F32) 3) in *.
    assert (E : zsum (fun c => c_int c 3 * 2)%Z (three nt) = 214%Z) by (vm_compute; reflexivity).
    assert (E' : zsum (fun c => Z.abs (c_int c 3 * 2)) (three nt) = 222%Z) by (vm_compute; reflexivity).
    destruct (HO 3 800%Z) as [F W]; auto.
    + rewrite SN. split; [lia|]. left. cbn; lia.
    + rewrite V3. cbn; lra.
    + rewrite E'. cbn; lia.
    + split; auto. rewrite W, E. cbn; lra.
Qed.
(** such chains exist, for every list of calls *)
Example C55_chain_exists {X} (step : X -> mem -> res mem -> Prop) (H : forall x o, exists r, step x o r) cs : forall o, exists r, chain step cs o r.
Proof.
  induction cs as [|c cs IH]; intros o; [exists (Ok o); constructor|]. destruct (H c o) as [r S]. destruct r as [o'| |].
  - destruct (IH o') as [r C]. exists r. eapply chain_next; eauto.
  - exists Abort. apply chain_stop; auto. discriminate.
  - exists UB. apply chain_stop; auto. discriminate.
Qed.
Example C55_bits_witness nt : 1 <= nt <= 900 -> exists o, chain add_step (three nt) (sample DT_F32) (Ok o).
Proof.
  intros Hn. destruct (C55_chain_exists add_step (fun c o => returns_total _ _ _) (three nt) (sample DT_F32)) as [r C].
  destruct (C55_accumulated_bits (three nt) (sample DT_F32) r (three_ok nt Hn) C) as (o & -> & _). exists o. exact C.
Qed.

(** Two peers with the values {0, 5/4, -3} (one f32 -> uint4 on AVX2, one bf16 -> uint8 on AVX-512, stochastic), scale 1/2: the receiver's element 1 starts at
    zero and ends within 0.26 + 0.51 of 5/2. *)
Definition peer_data (d : dtype) : mem := firstn (3 * stride d) (sample d).
Definition send A nt d dq zp rm : peer :=
  {| p_data_type := d; p_data := peer_data d; p_arch := A; p_threads := nt; p_qaddr := 0; p_type := dq; p_scale := f_half; p_zp := zp; p_mode := rm; p_thr := thr4;
     p_buffer := repeat 0xaa%Z (bytes_for dq 3); p_extra := [0%Z]; p_rarch := A; p_rthreads := nt + 1; p_oaddr := 0 |}.
Lemma peer_elem d i : float_type d -> i < 3 -> elem_at d (peer_data d) i = elem_at d (sample d) i.
Proof. intros [->| ->] Hi; destruct i as [|[|[|i]]]; try lia; vm_compute; reflexivity. Qed.
Lemma send_ok A nt d dq zp rm : float_type d -> quant_type dq -> (dq = DT_UINT2 -> False) -> (zp = 8)%Z -> 1 <= nt <= 900 ->
  peer_ok (repeat 0%Z 12) (send A nt d dq zp rm) /\ peer_fits 3 (send A nt d dq zp rm).
Proof.
  intros Hd Hq N2 -> Hn. destruct half_ok as [F V]. assert (M : (15 <= code_max dq)%Z) by (destruct Hq as [->|[->| ->]]; [congruence| |]; cbn; lia).
  assert (L : length (peer_data d) = stride d * 3 /\ numel d (length (peer_data d)) = 3) by (destruct Hd as [->| ->]; split; vm_compute; reflexivity). destruct L as [L1 L2].
  split.
  - unfold peer_ok, send. cbn [p_data_type p_data p_arch p_threads p_qaddr p_type p_scale p_zp p_mode p_thr p_buffer p_extra p_rarch p_rthreads p_oaddr].
    change (numel DT_F32 (length (repeat 0%Z 12))) with 3. change (length (repeat 0%Z 12)) with 12.
    split; [|split; [exact L2|split; [unfold sizes_ok; lia|split; [repeat constructor; lia|split; [discriminate|split; [exact half_normal|split; [lra|split; [lia|intros _; apply quarter_threshold]]]]]]]].
    unfold buffers_ok. rewrite L2. split; auto. split; auto. split; [apply Forall_is_byte_b; destruct Hd as [->| ->]; vm_compute; reflexivity|].
    split; [apply repeat_length|]. rewrite L1. destruct Hd as [->| ->]; cbn [stride]; unfold sizes_ok; lia.
  - intros i Hi. unfold p_x, send. cbn [p_data_type p_data p_type p_scale p_zp]. rewrite peer_elem by auto. destruct (sample_elem d i Hd ltac:(lia)) as [Fx Vx]. split; auto.
    rewrite Vx, V. assert (15 - 8 <= code_max dq - 8)%Z as M' by lia. apply IZR_le in M'. cbn [Z.sub Z.add Z.opp Z.pos_sub Pos.pred_double] in M'.
    destruct i as [|[|[|i]]]; try lia; unfold sval; cbn [nth Nat.modulo Nat.divmod snd Nat.sub]; cbn; cbn in M'; lra.
Qed.
Example C55_all_reduce_witness nt r : 1 <= nt <= 900 ->
  chain peer_step [send AVX2 nt DT_F32 DT_UINT4 8 RM_NEAREST; send AVX512BF16 nt DT_BF16 DT_UINT8 8 RM_STOCHASTIC] (repeat 0%Z 12) r ->
  exists o, r = Ok o /\ finite (f32_at o 1) /\ (Rabs (val (f32_at o 1) - 5 / 2) <= 77 / 100)%R.
Proof.
  intros Hn HC. destruct half_ok as [_ V].
  destruct (send_ok AVX2 nt DT_F32 DT_UINT4 8 RM_NEAREST) as [K1 F1]; auto; [left; auto|right; left; auto|discriminate|].
  destruct (send_ok AVX512BF16 nt DT_BF16 DT_UINT8 8 RM_STOCHASTIC) as [K2 F2]; auto; [right; auto|right; right; auto|discriminate|].
  destruct (C55_all_reduce_error _ _ r (Forall_cons _ K1 (Forall_cons _ K2 (Forall_nil _))) (Forall_cons _ F1 (Forall_cons _ F2 (Forall_nil _))) HC) as (o & -> & _ & HO).
  exists o. split; auto. change (numel DT_F32 (length (repeat 0%Z 12))) with 3 in HO.
  assert (A0 : finite (f32_at (repeat 0%Z 12) 1) /\ val (f32_at (repeat 0%Z 12) 1) = 0%R) by (split; vm_compute; reflexivity). destruct A0 as [A0 Z0].
  assert (X1 : p_x (send AVX2 nt DT_F32 DT_UINT4 8 RM_NEAREST) 1 = (5 / 4)%R).
  { unfold p_x, send. cbn [p_data_type p_data]. rewrite peer_elem by (try lia; left; auto). apply (sample_elem DT_F32 1 (or_introl eq_refl) ltac:(lia)). }
  assert (X2 : p_x (send AVX512BF16 nt DT_BF16 DT_UINT8 8 RM_STOCHASTIC) 1 = (5 / 4)%R).
  { unfold p_x, send. cbn [p_data_type p_data]. rewrite peer_elem by (try lia; right; auto). apply (sample_elem DT_BF16 1 (or_intror eq_refl) ltac:(lia)). }
  assert (E1 : p_error (send AVX2 nt DT_F32 DT_UINT4 8 RM_NEAREST) = (1 / 4 + / 8192)%R).
  { unfold p_error, send. cbn [p_scale p_mode]. rewrite V. change (bpow radix2 (-12)) with (/ 4096)%R. lra. }
  assert (E2 : p_error (send AVX512BF16 nt DT_BF16 DT_UINT8 8 RM_STOCHASTIC) = (1 / 2 + / 8192)%R).
  { unfold p_error, send. cbn [p_scale p_mode]. rewrite V. change (bpow radix2 (-12)) with (/ 4096)%R. lra. }
  specialize (HO 1 ltac:(lia)). cbv zeta in HO. unfold rsum in HO. cbn [fold_right length Nat.add] in HO. rewrite X1, X2, E1, E2, Z0, Rabs_R0, (Rabs_pos_eq (5 / 4)) in HO by lra.
  assert (G : (1 <= (1 + u_f32) ^ 3 <= 1 + / 1000)%R) by (unfold u_f32; cbn [pow]; lra). set (g := ((1 + u_f32) ^ 3)%R) in *.
  destruct HO as [F E]; auto.
  - right. repeat constructor; discriminate.
  - apply Rle_trans with (bpow radix2 10); [change (bpow radix2 10) with 1024%R; lra|apply bpow_le; lia].
  - split; auto. replace (val (f32_at o 1) - 5 / 2)%R with (val (f32_at o 1) - (0 + (5 / 4 + (5 / 4 + 0))))%R by lra. eapply Rle_trans; [exact E|]. lra.
Qed.
