(** Witnesses18.v -- concrete instance of C55_all_reduce_bf16. *)
From Coq Require Import ZArith List Lia Bool Arith ZifyBool ZifyNat Reals Lra.
From Flocq Require Import Core Binary Bits.
From Verif Require Import Base Floats Dtypes Spec ApiSpec Context Api FloatFacts FloatFacts2 PropsQuantize PropsDequantize PropsRoundTrip RoundTripFacts PropsRoundTripTypes PropsAccumulate PropsAccumulate16
  Witnesses Witnesses5 Witnesses10.
Import ListNotations.

(** Three peers with the values {0, 5/4, -3} and a bf16 accumulator {0, 0, 0}: element 1 ends within 1.2 of 15/4. *)
Lemma send_ok16 A nt d dq rm : float_type d -> quant_type dq -> dq <> DT_UINT2 -> 1 <= nt <= 900 ->
  peer_ok16 (repeat 0%Z 6) (send A nt d dq 8 rm) /\ peer_fits 3 (send A nt d dq 8 rm).
Proof.
  intros Hd Hq N2 Hn. destruct (send_ok A nt d dq 8 rm Hd Hq N2 eq_refl Hn) as [(B & N & _ & X1 & X2 & _ & Hp & Hz & Ht) HF]. split; [|exact HF].
  unfold peer_ok16. split; auto. split; auto. split; [|split; auto; split; auto; split; [exact half_bf16_scale|auto]].
  unfold send; cbn [p_rthreads]. change (numel DT_BF16 (length (repeat 0%Z 6))) with 3. change (length (repeat 0%Z 6)) with 6. unfold sizes_ok. lia.
Qed.
Lemma peer_x A nt d dq rm i : float_type d -> i < 3 -> p_x (send A nt d dq 8 rm) i = sval i.
Proof. intros Hd Hi. unfold p_x, send. cbn [p_data_type p_data]. rewrite peer_elem by auto. apply (sample_elem d i Hd). lia. Qed.
Lemma tiny126 : (0 < bpow radix2 (-126) <= / 1024)%R.
Proof. split; [apply bpow_gt_0|]. change (/ 1024)%R with (bpow radix2 (-10)). apply bpow_le. lia. Qed.
Example C55_bf16_witness nt r : 1 <= nt <= 900 ->
  chain peer_step16 [send AVX2 nt DT_F32 DT_UINT4 8 RM_NEAREST; send AVX512BF16 nt DT_BF16 DT_UINT8 8 RM_STOCHASTIC; send GENERIC nt DT_F32 DT_UINT8 8 RM_NEAREST] (repeat 0%Z 6) r ->
  exists o, r = Ok o /\ finite (elem_at DT_BF16 o 1) /\ (Rabs (val (elem_at DT_BF16 o 1) - 15 / 4) <= 12 / 10)%R.
Proof.
  intros Hn HC. destruct half_ok as [_ V].
  set (p1 := send AVX2 nt DT_F32 DT_UINT4 8 RM_NEAREST) in *. set (p2 := send AVX512BF16 nt DT_BF16 DT_UINT8 8 RM_STOCHASTIC) in *. set (p3 := send GENERIC nt DT_F32 DT_UINT8 8 RM_NEAREST) in *.
  destruct (send_ok16 AVX2 nt DT_F32 DT_UINT4 RM_NEAREST (or_introl eq_refl) (or_intror (or_introl eq_refl)) ltac:(discriminate) Hn) as [K1 F1]. fold p1 in K1, F1.
  destruct (send_ok16 AVX512BF16 nt DT_BF16 DT_UINT8 RM_STOCHASTIC (or_intror eq_refl) (or_intror (or_intror eq_refl)) ltac:(discriminate) Hn) as [K2 F2]. fold p2 in K2, F2.
  destruct (send_ok16 GENERIC nt DT_F32 DT_UINT8 RM_NEAREST (or_introl eq_refl) (or_intror (or_intror eq_refl)) ltac:(discriminate) Hn) as [K3 F3]. fold p3 in K3, F3.
  assert (X1 : forall i, i < 3 -> p_x p1 i = sval i) by (intros; apply peer_x; auto; left; auto).
  assert (X2 : forall i, i < 3 -> p_x p2 i = sval i) by (intros; apply peer_x; auto; right; auto).
  assert (X3 : forall i, i < 3 -> p_x p3 i = sval i) by (intros; apply peer_x; auto; left; auto).
  assert (E1 : forall i, i < 3 -> p_error16 p1 i = (/ 2 * (/ 2 + / 2048) + / 126 * (Rabs (sval i) + 1) + bpow radix2 (-126))%R).
  { intros i Hi. unfold p_error16. rewrite (X1 i Hi). unfold p1, send. cbn [p_scale p_mode]. rewrite V. change (bpow radix2 (-11)) with (/ 2048)%R. lra. }
  assert (E2 : forall i, i < 3 -> p_error16 p2 i = (/ 2 * (1 + / 2048) + / 126 * (Rabs (sval i) + 1) + bpow radix2 (-126))%R).
  { intros i Hi. unfold p_error16. rewrite (X2 i Hi). unfold p2, send. cbn [p_scale p_mode]. rewrite V. change (bpow radix2 (-11)) with (/ 2048)%R. lra. }
  assert (E3 : forall i, i < 3 -> p_error16 p3 i = (/ 2 * (/ 2 + / 2048) + / 126 * (Rabs (sval i) + 1) + bpow radix2 (-126))%R).
  { intros i Hi. unfold p_error16. rewrite (X3 i Hi). unfold p3, send. cbn [p_scale p_mode]. rewrite V. change (bpow radix2 (-11)) with (/ 2048)%R. lra. }
  assert (A0 : forall i, i < 3 -> finite (elem_at DT_BF16 (repeat 0%Z 6) i) /\ val (elem_at DT_BF16 (repeat 0%Z 6) i) = 0%R).
  { intros i Hi. destruct i as [|[|[|i]]]; try lia; split; vm_compute; reflexivity. }
  pose proof tiny126 as T. set (t := bpow radix2 (-126)) in *.
  assert (G : (1 <= (1 + / 250) ^ 3 <= 1 + 13 / 1000)%R) by (cbn [pow]; lra). set (g := ((1 + / 250) ^ 3)%R) in *.
  destruct (C55_all_reduce_bf16 _ _ r (Forall_cons _ K1 (Forall_cons _ K2 (Forall_cons _ K3 (Forall_nil _)))) (Forall_cons _ F1 (Forall_cons _ F2 (Forall_cons _ F3 (Forall_nil _))))) as (o & -> & _ & HO); auto.
  - repeat constructor; lia.
  - change (numel DT_BF16 (length (repeat 0%Z 6))) with 3. intros i Hi. destruct (A0 i Hi) as [F Z]. split; auto. unfold rsum. cbn [fold_right length]. fold g.
    rewrite (X1 i Hi), (X2 i Hi), (X3 i Hi), (E1 i Hi), (E2 i Hi), (E3 i Hi), Z, Rabs_R0.
    assert (S : (Rabs (sval i) <= 3)%R). { destruct i as [|[|[|i]]]; try lia; unfold sval; cbn; [rewrite Rabs_R0; lra|rewrite Rabs_pos_eq; lra|rewrite Rabs_left; lra]. }
    pose proof (Rabs_pos (sval i)). set (s := Rabs (sval i)) in *.
    apply Rle_trans with (bpow radix2 10); [change (bpow radix2 10) with 1024%R; clearbody s g t; nra|apply bpow_le; lia].
  - change (numel DT_BF16 (length (repeat 0%Z 6))) with 3 in HO. exists o. split; auto. destruct (HO 1 ltac:(lia)) as [F E]. split; auto.
    destruct (A0 1 ltac:(lia)) as [_ Z]. unfold rsum in E. cbn [fold_right length] in E. fold g in E.
    rewrite (X1 1), (X2 1), (X3 1), (E1 1), (E2 1), (E3 1), Z, Rabs_R0 in E by lia. change (sval 1) with (5 / 4)%R in E. rewrite (Rabs_pos_eq (5 / 4)) in E by lra.
    replace (val (elem_at DT_BF16 o 1) - 15 / 4)%R with (val (elem_at DT_BF16 o 1) - (0 + (5 / 4 + (5 / 4 + (5 / 4 + 0)))))%R by lra.
    eapply Rle_trans; [exact E|]. clearbody g t. nra.
Qed.
