(** Witnesses9.v -- concrete instances of the theorems of PropsReadme.v (C52). *)
From Coq Require Import ZArith List Lia Bool Arith ZifyBool ZifyNat Reals Lra.
From Flocq Require Import Core Binary Bits.
From Verif Require Import Base Floats Dtypes Spec ApiSpec ConfigSpec Context Api FloatFacts FloatFacts2 PropsQuantize PropsDequantize PropsRoundTrip RoundTripFacts MinMax ConfigFacts PropsConfig
  PropsReadme Naive PropsNaive Witnesses Witnesses5.
Import ListNotations.

(** {1/64, 1, 1/2} as bf16 data for uint4: the range does not contain zero, but zero is less than half a step below it.  On any CPU but SSE4.2, with any kernel set
    and 1 to 1000 threads, what comes back is within scale / 2 + 0.005. *)
Definition rand_data : mem := le_bytes 2 0x3C80 ++ le_bytes 2 0x3F80 ++ le_bytes 2 0x3F00.
Lemma rand_vals : val (elem_at DT_BF16 rand_data 0) = (1 / 64)%R /\ val (elem_at DT_BF16 rand_data 1) = 1%R /\ val (elem_at DT_BF16 rand_data 2) = (1 / 2)%R.
Proof. repeat split; unfold val; cbn; unfold F2R; cbn; lra. Qed.
Lemma rand_each (P : nat -> Prop) : P 0 -> P 1 -> P 2 -> forall i, i < 3 -> P i.
Proof. intros H0 H1 H2 i Hi. destruct i as [|[|[|i]]]; auto. lia. Qed.
Lemma rand_range : data_range DT_BF16 rand_data 3 (1 / 64) 1.
Proof.
  destruct rand_vals as (V0 & V1 & V2). split; [exists 0; auto|]. split; [exists 1; auto|]. apply rand_each; rewrite ?V0, ?V1, ?V2; lra.
Qed.
Lemma rand_finite : finite_data DT_BF16 rand_data 3.
Proof. split; [apply Forall_is_byte_b; vm_compute; reflexivity|]. split; [reflexivity|]. apply rand_each; vm_compute; reflexivity. Qed.
Lemma cover3 : block_cover 3 [(0, 2); (2, 3)].
Proof.
  split; [intros b [<-|[<-|[]]]; cbn; lia|]. intros t Ht. destruct (lt_dec t 2); [exists (0, 2)|exists (2, 3)]; cbn; split; auto; lia.
Qed.

Example C52_witness a A A2 nt nt2 oaddr oaddr2 thr p r scale zp : a <> SSE42 -> few nt -> few nt2 ->
  compute_quant_config_from_data a DT_BF16 DT_UINT4 rand_data [(0, 2); (2, 3)] = Ok (scale, zp) ->
  returns rand_data [0; 0]%Z (quantize_call A nt oaddr DT_BF16 DT_UINT4 scale zp RM_NEAREST thr rand_data [0; 0]%Z) (Ok p) ->
  returns (p ++ [7%Z]) (repeat 0%Z 6) (dequantize_call A2 nt2 oaddr2 DT_UINT4 DT_BF16 scale zp RO_SET (length p) (repeat 0%Z 6)) r ->
  exists o, r = Ok o /\ forall i, i < 3 -> (Rabs (val (elem_at DT_BF16 o i) - val (elem_at DT_BF16 rand_data i)) <= val scale * (1 / 2) + 5 / 1000)%R.
Proof.
  intros Ha Hn Hn2 EC HQ HD.
  assert (Hf : float_type DT_BF16) by (right; reflexivity). assert (Hq : quant_type DT_UINT4) by (right; left; reflexivity).
  assert (E : bind (compute_quant_config_from_data a DT_BF16 DT_UINT4 rand_data [(0, 2); (2, 3)]) (fun c => Ok (bits_of_f32 (fst c), snd c)) = Ok (0x3D866666%Z, 0%Z))
    by (destruct a; try congruence; vm_compute; reflexivity).
  rewrite EC in E. cbn in E. injection E as E1 ->.
  assert (Es : scale = f32_of_bits 0x3D866666) by (rewrite <- E1; symmetry; apply (binary_float_of_bits_of_binary_float 23 8 eq_refl eq_refl eq_refl)).
  assert (Vs : val scale = (IZR 0x866666 / 134217728)%R) by (rewrite Es; unfold val; cbn; unfold F2R; cbn; lra).
  assert (B : (bpow radix2 (-112) <= 1 - 1 / 64)%R) by (apply Rle_trans with (bpow radix2 (-1)); [apply bpow_le; lia|change (bpow radix2 (-1)) with (/ 2)%R; lra]).
  destruct (C52_readme_bf16 a [(0, 2); (2, 3)] A nt oaddr A2 nt2 oaddr2 DT_BF16 DT_UINT4 scale 0 thr rand_data [0; 0]%Z p [7%Z] (repeat 0%Z 6) r (1 / 64)%R 1%R) as (o & -> & _ & HO); auto;
    change (numel DT_BF16 (length (repeat 0%Z 6))) with 3; try (rewrite Vs; lra); try lra; try discriminate; auto using rand_finite, rand_range, cover3.
  - unfold buffers_ok. change (numel DT_BF16 (length rand_data)) with 3. change (length rand_data) with 6. repeat split; auto; try (apply rand_finite); unfold few in *; lia.
  - change (length (repeat 0%Z 6)) with 6. unfold sizes_ok, few in *. lia.
  - apply Forall_is_byte_b. reflexivity.
  - repeat constructor; lia.
  - exists o. split; auto. intros i Hi. apply (HO i Hi); [lra|discriminate].
Qed.

(** ** C53: the 70 sample elements, any kernel set, 1 to 1000 threads: byte for byte the reference; stochastic with the reference's own seed *)
Example C53_witness A nt oaddr din dq thr xi r : float_type din -> reference_type dq -> few nt ->
  returns (sample din) (sample_out dq) (quantize_call A nt oaddr din dq f_half 2 RM_NEAREST thr (sample din) (sample_out dq)) r ->
  exists o, r = Ok o /\ quantize_naive RM_NEAREST din dq f_half 2 xi (elements din (sample din)) (sample_out dq) = Ok o.
Proof.
  intros Hd Hr Hn HR. assert (Z22 : (Z.abs 2 <= 2 ^ 22)%Z) by (cbn; lia). pose proof (reference_quant _ Hr) as Hq. destruct (sample_len din Hd) as [_ E].
  apply (C53_nearest_equals_reference A nt oaddr din dq f_half 2 thr xi (sample din) (sample_out dq) (sample_out dq) r); auto using sample_buffers, half_good.
  rewrite E. intros i Hi. apply (sample_input A din RM_NEAREST i 2); auto.
Qed.
Fixpoint xs_after (k : nat) (s : xs_state) : xs_state := match k with 0 => s | S k => xs_after k (snd (xs_next s)) end.
Definition test_seed : xs_state := (0x123456789abcdef0, 0x0fedcba987654321)%Z.
Lemma seed1 : (0 <= fst test_seed < 2 ^ 64)%Z. Proof. vm_compute. split; [discriminate|reflexivity]. Qed.
Lemma seed2 : (0 <= snd test_seed < 2 ^ 64)%Z. Proof. vm_compute. split; [discriminate|reflexivity]. Qed.
Lemma xs_after_ok k s : (0 <= fst s < 2 ^ 64)%Z -> (0 <= snd s < 2 ^ 64)%Z -> (0 <= fst (xs_after k s) < 2 ^ 64)%Z /\ (0 <= snd (xs_after k s) < 2 ^ 64)%Z.
Proof. revert s. induction k as [|k IH]; intros s H1 H2; cbn [xs_after]; auto. destruct (C53_reference_random s H1 H2) as (_ & B1 & B2 & _). apply IH; auto. Qed.
Example C53_stochastic_witness A nt oaddr dq r : reference_type dq -> few nt ->
  returns (sample DT_F32) (sample_out dq) (quantize_call A nt oaddr DT_F32 dq f_half 2 RM_STOCHASTIC thr4 (sample DT_F32) (sample_out dq)) r ->
  exists o ref, r = Ok o /\ quantize_naive RM_STOCHASTIC DT_F32 dq f_half 2 (fun i => xs_canonical (xs_after i test_seed)) (elements DT_F32 (sample DT_F32)) (sample_out dq) = Ok ref /\
    (Z.abs (code_at dq o 3 - code_at dq ref 3) <= 1)%Z.
Proof.
  intros Hr Hn HR. assert (Hd : float_type DT_F32) by (left; reflexivity). assert (Z62 : (Z.abs 2 <= 2 ^ 62)%Z) by (cbn; lia). pose proof (reference_quant _ Hr) as Hq. destruct (sample_len _ Hd) as [_ E].
  destruct (C53_stochastic_near_reference A nt oaddr dq f_half 2 thr4 (fun i => xs_canonical (xs_after i test_seed)) (sample DT_F32) (sample_out dq) (sample_out dq) r) as (o & ref & -> & HR' & _ & HO);
    auto using sample_buffers, half_good.
  - apply quarter_threshold.
  - intros i. exists (xs_after i test_seed). destruct (xs_after_ok i test_seed seed1 seed2) as [B1 B2]. auto.
  - rewrite E. intros i Hi. apply (sample_input A DT_F32 RM_STOCHASTIC i 2); auto.
  - exists o, ref. split; auto. split; auto. apply HO. rewrite E. lia.
Qed.
(** the first draw of the reference *)
Example C53_first_draw : bits_of_f32 (xs_canonical test_seed) = 1064520851%Z.
Proof. vm_compute. reflexivity. Qed.

(** ** C54: seventy times 42.0 comes back exactly (the test requantize_float_to_uint8_identity_data); seventy times 1000.0 comes back as 128 *)
Definition const_data (b : Z) : mem := concat (repeat (le_bytes 4 b) 70).
Lemma const_facts b c : Forall is_byte (le_bytes 4 b) -> finite (f32_of_bits (le_val (le_bytes 4 b))) -> val (f32_of_bits (le_val (le_bytes 4 b))) = c ->
  finite_data DT_F32 (const_data b) 70 /\ forall i, i < 70 -> val (elem_at DT_F32 (const_data b) i) = c.
Proof.
  intros HB HF HV. assert (L : length (const_data b) = 280) by reflexivity.
  assert (E : forall i, i < 70 -> elem_at DT_F32 (const_data b) i = f32_of_bits (le_val (le_bytes 4 b))).
  { intros i Hi. cbn [elem_at]. unfold f32_at. do 2 f_equal. unfold const_data.
    assert (H : forall k i (x : mem), length x = 4 -> i < k -> slice (4 * i) 4 (concat (repeat x k)) = x).
    { clear. intros k. induction k as [|k IH]; intros i x Hx Hi; [lia|]. cbn [repeat concat]. unfold slice in *. destruct i as [|i].
      - rewrite Nat.mul_0_r. cbn [skipn]. rewrite <- Hx. rewrite firstn_app, Nat.sub_diag, firstn_all. cbn [firstn]. apply app_nil_r.
      - replace (4 * S i) with (length x + 4 * i) by lia. rewrite skipn_app. rewrite skipn_all2 by lia. cbn [app]. replace (length x + 4 * i - length x) with (4 * i) by lia. apply IH; auto. lia. }
    apply H; auto. }
  split.
  - split; [|split; [rewrite L; reflexivity|intros i Hi; rewrite E; auto]]. unfold const_data. apply Forall_concat. apply Forall_forall. intros x Hx. apply repeat_spec in Hx. subst. exact HB.
  - intros i Hi. rewrite E; auto.
Qed.
Lemma whole70 : block_cover 70 [(0, 70)].
Proof. split; [intros b [<-|[]]; cbn; lia|]. intros t Ht. exists (0, 70). cbn. split; auto; lia. Qed.
Example C54_witness (big : bool) a A A2 nt nt2 oaddr oaddr2 thr p r scale zp : let b := if big then 0x447A0000%Z else 0x42280000%Z in
  few nt -> few nt2 -> compute_quant_config_from_data a DT_F32 DT_UINT8 (const_data b) [(0, 70)] = Ok (scale, zp) ->
  returns (const_data b) (sample_out DT_UINT8) (quantize_call A nt oaddr DT_F32 DT_UINT8 scale zp RM_NEAREST thr (const_data b) (sample_out DT_UINT8)) (Ok p) ->
  returns (p ++ [0%Z]) (sample DT_F32) (dequantize_call A2 nt2 oaddr2 DT_UINT8 DT_F32 scale zp RO_SET (length p) (sample DT_F32)) r ->
  exists o, r = Ok o /\ val (elem_at DT_F32 o 3) = (if big then 128 else 42)%R.
Proof.
  intros b Hn Hn2 EC HQ HD. assert (Hd : float_type DT_F32) by (left; reflexivity). assert (Hq : quant_type DT_UINT8) by (right; right; reflexivity). destruct (sample_len _ Hd) as [SL SN].
  set (c := (if big then 1000 else 42)%R).
  destruct (const_facts b c) as [HF HV].
  { destruct big; apply Forall_is_byte_b; vm_compute; reflexivity. }
  { destruct big; vm_compute; reflexivity. }
  { unfold c, val. destruct big; cbn; unfold F2R; cbn; lra. }
  assert (BP : (pred_half < 1)%R) by (unfold pred_half; pose proof (bpow_gt_0 radix2 (-25)); lra).
  assert (Hc : (1 < c < bpow radix2 30)%R) by (change (bpow radix2 30) with 1073741824%R; unfold c; destruct big; lra).
  assert (L : length (const_data b) = 280) by reflexivity.
  destruct (C54_constant_round_trip a [(0, 70)] A nt oaddr A2 nt2 oaddr2 DT_F32 DT_UINT8 scale zp thr (const_data b) (sample_out DT_UINT8) p [0%Z] (sample DT_F32) r c) as (-> & _ & o & -> & _ & HO);
    rewrite ?SN; auto using whole70; try lia; try discriminate; try (rewrite Rabs_pos_eq; lra).
  - unfold buffers_ok. rewrite L. change (numel DT_F32 280) with 70. split; auto. split; auto. split; [apply HF|]. split; [apply repeat_length|]. unfold sizes_ok, few in *. lia.
  - apply sample_sizes; auto.
  - repeat constructor; lia.
  - exists o. split; auto. destruct (HO 3 ltac:(rewrite SN; lia)) as (V & _ & V1 & V2 & _). unfold c in *. destruct big.
    + apply V2. cbn. lra.
    + apply (V1 42%Z); [reflexivity|cbn; lia].
Qed.
