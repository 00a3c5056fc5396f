(** Witnesses31.v -- concrete instances of the theorems of PropsRing.v (C70). *)
From Coq Require Import ZArith List Lia Bool Arith ZifyBool ZifyNat Reals Lra.
From Flocq Require Import Core Binary Bits.
From Verif Require Import Base Floats Dtypes Spec ApiSpec ConfigSpec Context Api FloatFacts FloatFacts2 PropsQuantize PropsDequantize PropsRoundTrip RoundTripFacts PropsRoundTripTypes MinMax
  MinMaxFacts ConfigFacts PropsConfig PropsAccumulate PropsReplicas PropsRing Witnesses5 Witnesses Witnesses10.
Import ListNotations.
Open Scope nat_scope.

(** every worker holds {0, 5/4, -3} *)
Definition part : mem := peer_data DT_F32.
Lemma part_ok : finite_data DT_F32 part 3.
Proof.
  split; [apply Forall_is_byte_b; vm_compute; reflexivity|]. split; [vm_compute; reflexivity|]. intros i Hi. unfold part. rewrite peer_elem by (auto; left; reflexivity).
  apply (sample_elem DT_F32 i (or_introl eq_refl)). lia.
Qed.
Lemma part_at i : i < 3 -> at_ part i = sval i.
Proof.
  intros Hi. unfold at_. change (f32_at part i) with (elem_at DT_F32 (peer_data DT_F32) i). rewrite peer_elem by (auto; left; reflexivity).
  apply (sample_elem DT_F32 i (or_introl eq_refl)). lia.
Qed.
Lemma part_abs i : i < 3 -> (Rabs (at_ part i) <= 3)%R.
Proof. intros Hi. rewrite part_at by auto. destruct i as [|[|[|i]]]; try lia; unfold sval; cbn; apply Rabs_le; lra. Qed.

(** a hop from one CPU to another, scale 1/2, zero point 128 *)
Definition pass A nt dq rm : hop :=
  {| h_arch := A; h_threads := nt; h_qaddr := 0; h_type := dq; h_scale := f_half; h_zp := 128; h_mode := rm; h_thr := thr4; h_buffer := repeat 0xaa%Z (bytes_for dq 3);
     h_extra := [0%Z]; h_rarch := A; h_rthreads := nt + 1; h_oaddr := 0; h_own := part |}.
Lemma pass_ok A nt dq rm : quant_type dq -> 1 <= nt <= 900 -> hop_ok 3 (pass A nt dq rm).
Proof.
  intros Hq Hn. unfold hop_ok, pass. cbn [h_arch h_threads h_qaddr h_type h_scale h_zp h_mode h_thr h_buffer h_extra h_rarch h_rthreads h_oaddr h_own].
  split; [exact Hq|]. split; [apply repeat_length|]. split; [unfold sizes_ok; lia|]. split; [unfold sizes_ok; lia|].
  split; [repeat constructor; unfold is_byte; lia|]. split; [discriminate|]. split; [intros _; apply quarter_threshold|exact part_ok].
Qed.

(** three workers, uint8: element 1 of the sum is within 51/100 of 15/4 *)
Definition two_hops nt : list hop := [pass AVX2 nt DT_UINT8 RM_NEAREST; pass AVX512F nt DT_UINT8 RM_NEAREST].
Lemma pass_error A nt : hop_error (pass A nt DT_UINT8 RM_NEAREST) = (1 / 4 + / 8192)%R.
Proof. destruct half_ok as [_ V]. unfold hop_error, pass. cbn [h_scale h_mode]. rewrite V. change (bpow radix2 (-12)) with (/ 4096)%R. lra. Qed.
Lemma pass_params A nt rm : params_ok (pass A nt DT_UINT8 rm).
Proof. destruct half_ok as [_ V]. split; [exact half_normal|]. cbn [pass h_scale h_zp h_type]. rewrite V. split; [lra|]. change (code_max DT_UINT8) with 255%Z. lia. Qed.
Lemma grow_small k : k <= 2 -> (1 <= ring_grow k <= 1 + / 1000000)%R.
Proof. intros H. destruct k as [|[|[|k]]]; try lia; unfold ring_grow, u_f32; cbn [Nat.mul Nat.add pow]; lra. Qed.
Lemma two_hops_mass nt k i : i < 3 -> (0 <= ring_mass part (firstn k (two_hops nt)) i <= 10)%R.
Proof.
  intros Hi. pose proof (part_abs i Hi) as B. pose proof (Rabs_pos (at_ part i)) as P. unfold ring_mass, two_hops, rsum.
  destruct k as [|[|[|k]]]; cbn [firstn fold_right]; rewrite ?pass_error; cbn [pass h_own]; lra.
Qed.
Example C70_planned_witness nt : 1 <= nt <= 900 -> exists o, chain hop_step (two_hops nt) part (Ok o) /\ (Rabs (at_ o 1 - 15 / 4) <= 51 / 100)%R.
Proof.
  intros Hn. destruct half_ok as [_ V].
  assert (E : forall h b, exists r, hop_step h b r).
  { intros h b. unfold hop_step, peer_step. set (p := sender h b).
    destruct (returns_total (p_data p) (p_buffer p) (quantize_call (p_arch p) (p_threads p) (p_qaddr p) (p_data_type p) (p_type p) (p_scale p) (p_zp p) (p_mode p) (p_thr p) (p_data p) (p_buffer p))) as [q Hq].
    destruct q as [c| |].
    - destruct (returns_total (c ++ p_extra p) (h_own h) (dequantize_call (p_rarch p) (p_rthreads p) (p_oaddr p) (p_type p) DT_F32 (p_scale p) (p_zp p) RO_ADD (length c) (h_own h))) as [r Hr].
      exists r, (Ok c). auto.
    - exists Abort, Abort. auto.
    - exists UB, UB. auto. }
  destruct (C55_chain_exists hop_step E (two_hops nt) part) as [r C].
  destruct (C70_planned_ring 3 part (two_hops nt) r part_ok) as (o & -> & _ & HO).
  - apply Forall_cons; [|apply Forall_cons; [|apply Forall_nil]]; apply pass_ok; try lia; right; right; reflexivity.
  - apply Forall_cons; [|apply Forall_cons; [|apply Forall_nil]]; apply pass_params.
  - right. repeat constructor; discriminate.
  - intros k h i Hk Hi. pose proof (two_hops_mass nt k i Hi) as HM.
    assert (Kk : k < 2) by (apply (nth_error_Some (two_hops nt)); rewrite Hk; discriminate). pose proof (grow_small k ltac:(lia)) as G.
    assert (X : (0 <= ring_grow k * ring_mass part (firstn k (two_hops nt)) i <= 11)%R) by nra. set (m := (ring_grow k * _)%R) in *. clearbody m.
    assert (Y : h_zp h = 128%Z /\ val (h_scale h) = (/ 2)%R /\ h_type h = DT_UINT8).
    { destruct k as [|[|k]]; try lia; cbn in Hk; injection Hk as <-; auto. }
    destruct Y as (Y1 & Y2 & Y3). unfold covers_up_to. rewrite Y1, Y2, Y3. change (code_max DT_UINT8 - 128)%Z with 127%Z. change (0 - 128)%Z with (-128)%Z. lra.
  - intros i Hi. pose proof (two_hops_mass nt 2 i Hi) as HM. change (firstn 2 (two_hops nt)) with (two_hops nt) in HM. pose proof (grow_small 2 ltac:(lia)) as G.
    change (length (two_hops nt)) with 2. apply Rle_trans with 32%R; [nra|]. change 32%R with (bpow radix2 5). apply bpow_le. lia.
  - exact C.
  - exists o. split; [exact C|]. specialize (HO 1 ltac:(lia)). pose proof (two_hops_mass nt 2 1 ltac:(lia)) as HM. change (firstn 2 (two_hops nt)) with (two_hops nt) in HM.
    pose proof (grow_small 2 ltac:(lia)) as G. change (length (two_hops nt)) with 2 in HO.
    assert (S1 : ring_sum part (two_hops nt) 1 = (15 / 4)%R) by (unfold ring_sum, two_hops, rsum; cbn [fold_right pass h_own]; rewrite part_at by lia; unfold sval; cbn; lra).
    assert (S2 : rsum hop_error (two_hops nt) = (1 / 2 + / 4096)%R) by (unfold two_hops, rsum; cbn [fold_right]; rewrite !pass_error; lra).
    rewrite S1, S2 in HO. nra.
Qed.

(** a range exists *)
Lemma range_exists m n : 0 < n -> exists lo hi, data_range DT_F32 m n lo hi.
Proof.
  intros H. destruct n as [|n]; [lia|]. clear H. induction n as [|n (lo & hi & (il & Hl & El) & (ih & Hh & Eh) & HR)].
  - exists (val (elem_at DT_F32 m 0)), (val (elem_at DT_F32 m 0)). split; [exists 0; auto|]. split; [exists 0; auto|]. intros i Hi. assert (i = 0) by lia. subst. lra.
  - set (x := val (elem_at DT_F32 m (S n))). exists (Rmin lo x), (Rmax hi x). split; [|split].
    + unfold Rmin. destruct (Rle_dec lo x); [exists il; split; [lia|auto]|exists (S n); split; [lia|reflexivity]].
    + unfold Rmax. destruct (Rle_dec hi x); [exists (S n); split; [lia|reflexivity]|exists ih; split; [lia|auto]].
    + intros i Hi. pose proof (Rmin_l lo x). pose proof (Rmin_r lo x). pose proof (Rmax_l hi x). pose proof (Rmax_r hi x).
      destruct (Nat.eq_dec i (S n)) as [->|N]; [fold x; lra|]. specialize (HR i ltac:(lia)). lra.
Qed.
(** such steps exist for tensors with an element below -1 and one above 1 *)
Lemma computed_step_exists n h b i j : hop_ok n h -> finite_data DT_F32 b n -> i < n -> j < n -> (at_ b i <= -1)%R -> (1 <= at_ b j)%R ->
  (forall k, k < n -> (Rabs (at_ b k) <= bpow radix2 99)%R) -> exists r, computed_step n h b r.
Proof.
  intros HO FB Hi Hj Bi Bj BB. destruct (range_exists b n ltac:(lia)) as (lo & hi & HR). pose proof HR as ((il & Hil & El) & (ih & Hih & Eh) & HRg).
  pose proof (HRg i Hi) as R1. pose proof (HRg j Hj) as R2. change (val (elem_at DT_F32 b i)) with (at_ b i) in R1. change (val (elem_at DT_F32 b j)) with (at_ b j) in R2.
  assert (BC : block_cover n [(0, n)]).
  { split; [intros q [<-|[]]; cbn; lia|]. intros t Ht. exists (0, n). split; [left; reflexivity|]. cbn. lia. }
  assert (LH : (lo < hi)%R) by lra. pose proof HO as (Hq & _).
  destruct (C21_documented_parameters AVX2 DT_F32 (h_type h) b n [(0, n)] lo hi ltac:(discriminate) (or_introl eq_refl) Hq FB BC HR LH) as (s & E & _).
  assert (W : (bpow radix2 (-112) <= hi - lo <= bpow radix2 100)%R).
  { split; [apply Rle_trans with 1%R; [change 1%R with (bpow radix2 0); apply bpow_le; lia|lra]|].
    pose proof (BB il Hil) as B1. pose proof (BB ih Hih) as B2. change (at_ b il = lo) in El. change (at_ b ih = hi) in Eh. rewrite El in B1. rewrite Eh in B2.
    apply Rabs_le_inv in B1. apply Rabs_le_inv in B2. change 100%Z with (99 + 1)%Z. rewrite bpow_plus. change (bpow radix2 1) with 2%R. lra. }
  set (h' := with_params h s (config_zp (h_type h) lo hi)). set (p := sender h' b).
  assert (X : exists r, hop_step h' b r).
  { unfold hop_step, peer_step. fold p.
    destruct (returns_total (p_data p) (p_buffer p) (quantize_call (p_arch p) (p_threads p) (p_qaddr p) (p_data_type p) (p_type p) (p_scale p) (p_zp p) (p_mode p) (p_thr p) (p_data p) (p_buffer p))) as [q Hq'].
    destruct q as [c| |].
    - destruct (returns_total (c ++ p_extra p) (h_own h') (dequantize_call (p_rarch p) (p_rthreads p) (p_oaddr p) (p_type p) DT_F32 (p_scale p) (p_zp p) RO_ADD (length c) (h_own h'))) as [r Hr].
      exists r, (Ok c). auto.
    - exists Abort, Abort. auto.
    - exists UB, UB. auto. }
  destruct X as [r HrX]. exists r, AVX2, [(0, n)], lo, hi, s, (config_zp (h_type h) lo hi). split; [discriminate|]. split; [exact BC|]. split; [exact HR|]. split; [lra|]. split; [exact W|]. split; [exact E|exact HrX].
Qed.

(** three workers, parameters computed at every hop, uint4 with stochastic rounding and uint8: within 1.42 of 15/4 *)
Definition computed_hops nt : list hop := [pass AVX2 nt DT_UINT4 RM_STOCHASTIC; pass AVX512BF16 nt DT_UINT8 RM_NEAREST].
Lemma rates nt : Forall (fun h => (hop_rate h <= 3 / 20)%R) (computed_hops nt).
Proof.
  apply Forall_cons; [|apply Forall_cons; [|apply Forall_nil]]; unfold hop_rate, pass; cbn [h_mode h_type].
  - change (code_max DT_UINT4) with 15%Z. lra.
  - change (code_max DT_UINT8) with 255%Z. lra.
Qed.
Example C70_computed_witness nt : 1 <= nt <= 900 -> exists o, chain (computed_step 3) (computed_hops nt) part (Ok o) /\ (Rabs (at_ o 1 - 15 / 4) <= 142 / 100)%R.
Proof.
  intros Hn. assert (Q4 : quant_type DT_UINT4) by (right; left; reflexivity). assert (Q8 : quant_type DT_UINT8) by (right; right; reflexivity).
  assert (P3 : (3 <= bpow radix2 99)%R) by (apply Rle_trans with (bpow radix2 2); [change (bpow radix2 2) with 4%R; lra|apply bpow_le; lia]).
  assert (P8 : (8 <= bpow radix2 99)%R) by (change 8%R with (bpow radix2 3); apply bpow_le; lia).
  assert (PP : (bpow radix2 99 <= bpow radix2 100)%R) by (apply bpow_le; lia).
  pose proof (rates nt) as RT. inversion RT as [|? ? T1 RT2]; inversion RT2 as [|? ? T2 _]; subst.
  assert (HP : forall A dq rm, dq <> DT_UINT2 -> adds_all 3 [pass A nt dq rm]) by (intros A dq rm H; right; repeat constructor; exact H).
  assert (OW : forall A dq rm i, i < 3 -> (Rabs (at_ (h_own (pass A nt dq rm)) i) <= 3)%R) by (intros A dq rm i Hi; apply (part_abs i Hi)).
  (* first hop *)
  destruct (computed_step_exists 3 (pass AVX2 nt DT_UINT4 RM_STOCHASTIC) part 2 1) as [r1 S1]; auto using pass_ok, part_ok; try (rewrite part_at by lia; unfold sval; cbn; lra).
  { intros k Hk. pose proof (part_abs k Hk). lra. }
  destruct (computed_next 3 _ part r1 3 3 (3 / 20) (pass_ok _ _ _ _ Q4 Hn) (HP AVX2 DT_UINT4 RM_STOCHASTIC ltac:(discriminate)) part_ok S1 ltac:(lra) ltac:(lra) T1 (OW _ _ _) part_abs) as (b1 & -> & F1 & E1).
  assert (V1 : forall i, i < 3 -> (Rabs (at_ b1 i - 2 * sval i) <= 45 / 100)%R).
  { intros i Hi. specialize (E1 i Hi). cbn [pass h_own] in E1. rewrite part_at in E1 by auto. replace (2 * sval i)%R with (sval i + sval i)%R by ring. lra. }
  assert (B1 : forall i, i < 3 -> (Rabs (at_ b1 i) <= 7)%R).
  { intros i Hi. specialize (V1 i Hi). apply Rabs_le_inv in V1. apply Rabs_le. destruct i as [|[|[|i]]]; try lia; unfold sval in V1; cbn in V1; lra. }
  (* second hop *)
  destruct (computed_step_exists 3 (pass AVX512BF16 nt DT_UINT8 RM_NEAREST) b1 2 1) as [r2 S2]; auto using pass_ok.
  { pose proof (V1 2 ltac:(lia)) as X. apply Rabs_le_inv in X. unfold sval in X. cbn in X. lra. }
  { pose proof (V1 1 ltac:(lia)) as X. apply Rabs_le_inv in X. unfold sval in X. cbn in X. lra. }
  { intros k Hk. specialize (B1 k Hk). lra. }
  destruct (computed_next 3 _ b1 r2 3 7 (3 / 20) (pass_ok _ _ _ _ Q8 Hn) (HP AVX512BF16 DT_UINT8 RM_NEAREST ltac:(discriminate)) F1 S2 ltac:(lra) ltac:(lra) T2 (OW _ _ _) B1) as (b2 & -> & F2 & _).
  assert (C : chain (computed_step 3) (computed_hops nt) part (Ok b2)) by (eapply chain_next; [exact S1|]; eapply chain_next; [exact S2|]; constructor).
  exists b2. split; [exact C|].
  destruct (C70_computed_ring 3 part (computed_hops nt) (Ok b2) 3 (3 / 20) part_ok) as (o & E & _ & HO); auto using rates; try lra.
  - apply Forall_cons; [|apply Forall_cons; [|apply Forall_nil]]; apply pass_ok; auto.
  - right. repeat constructor; discriminate.
  - intros i Hi. pose proof (part_abs i Hi). split; [lra|]. apply Forall_cons; [|apply Forall_cons; [|apply Forall_nil]]; cbn [pass h_own]; exact H.
  - injection E as <-. specialize (HO 1 ltac:(lia)). change (length (computed_hops nt) + 1)%nat with 3%nat in HO. cbn [pow] in HO. replace (INR 3) with 3%R in HO by (rewrite INR_IZR_INZ; reflexivity).
    assert (S3 : ring_sum part (computed_hops nt) 1 = (15 / 4)%R) by (unfold ring_sum, computed_hops, rsum; cbn [fold_right pass h_own]; rewrite part_at by lia; unfold sval; cbn; lra).
    rewrite S3 in HO. lra.
Qed.
