(** Witnesses7.v -- concrete instances of the theorems of PropsChunks.v (C47) and PropsOrder.v (C48, C49, C50). *)
From Coq Require Import ZArith List Lia Bool Arith ZifyBool ZifyNat Reals Lra.
From Flocq Require Import Core Binary Bits.
From Verif Require Import Base Floats Dtypes Spec ApiSpec ConfigSpec Context Api FloatFacts FloatFacts2 PropsQuantize PropsDequantize PropsRoundTrip RoundTripFacts PropsDequantBf16 MinMax ConfigFacts PropsConfig
  PropsChunks PropsOrder Witnesses Witnesses5.
Import ListNotations.
Ltac Zify.zify_post_hook ::= Z.div_mod_to_equations.

(** the 70 sample elements cut into 40 and 30 *)
Definition part1 : mem := firstn 160 (sample DT_F32).
Definition part2 : mem := skipn 160 (sample DT_F32).
Lemma parts : part1 ++ part2 = sample DT_F32.
Proof. apply firstn_skipn. Qed.
Lemma parts_len : length part1 = 4 * 40 /\ length part2 = 4 * 30.
Proof. split; vm_compute; reflexivity. Qed.
Lemma parts_bytes : Forall is_byte part1 /\ Forall is_byte part2.
Proof. apply Forall_app. rewrite parts. apply sample_bytes. Qed.
Lemma part1_at i : i < 40 -> elem_at DT_F32 part1 i = elem_at DT_F32 (sample DT_F32) i.
Proof. intros H. rewrite <- parts. symmetry. apply elem_at_app_l; [left; reflexivity|]. destruct parts_len as [-> _]. change (stride DT_F32) with 4. lia. Qed.
Lemma part2_at i : elem_at DT_F32 part2 i = elem_at DT_F32 (sample DT_F32) (40 + i).
Proof. rewrite <- parts. symmetry. apply elem_at_app_r; [left; reflexivity|apply parts_len]. Qed.
Definition f32t : float_type DT_F32 := or_introl eq_refl.

Example C47_quantize_witness A Aa Ab nt nta ntb oaddr oaddra oaddrb dq rm pa pb ra rb r : quant_type dq -> few nt -> few nta -> few ntb ->
  length pa = bytes_for dq 40 -> length pb = bytes_for dq 30 ->
  returns part1 pa (quantize_call Aa nta oaddra DT_F32 dq f_half 2 rm thr4 part1 pa) ra ->
  returns part2 pb (quantize_call Ab ntb oaddrb DT_F32 dq f_half 2 rm thr4 part2 pb) rb ->
  returns (sample DT_F32) (pa ++ pb) (quantize_call A nt oaddr DT_F32 dq f_half 2 rm thr4 (sample DT_F32) (pa ++ pb)) r ->
  exists qa qb, ra = Ok qa /\ rb = Ok qb /\ r = Ok (qa ++ qb).
Proof.
  intros Hq Hn Hna Hnb Lpa Lpb Ra Rb R. destruct parts_len as [L1 L2]. destruct parts_bytes as [B1 B2]. destruct (sample_len _ f32t) as [SL SN].
  assert (N1 : numel DT_F32 (length part1) = 40) by (rewrite L1; reflexivity). assert (N2 : numel DT_F32 (length part2) = 30) by (rewrite L2; reflexivity).
  assert (Z22 : (Z.abs 2 <= 2 ^ 22)%Z) by (cbn; lia). assert (Z62 : (Z.abs 2 <= 2 ^ 62)%Z) by (cbn; lia).
  rewrite <- parts in R.
  destruct (C47_quantize_chunks A Aa Ab nt nta ntb oaddr oaddra oaddrb DT_F32 dq f_half 2 rm thr4 thr4 thr4 part1 part2 pa pb 40 ra rb r) as (qa & qb & H1 & H2 & H3 & _); auto.
  - destruct Hq as [->|[->| ->]]; reflexivity.
  - unfold buffers_ok. rewrite N1, L1. repeat split; auto; try (left; reflexivity); unfold few in *; lia.
  - unfold buffers_ok. rewrite N2, L2. repeat split; auto; try (left; reflexivity); unfold few in *; lia.
  - rewrite parts, SN. apply sample_sizes; auto. left; reflexivity.
  - apply half_good.
  - intros _. split; auto. split; auto. split; auto. apply quarter_threshold.
  - rewrite N1. intros i Hi. rewrite part1_at by auto. split; apply sample_input; auto; try lia; left; reflexivity.
  - rewrite N2. intros i Hi. rewrite part2_at by auto. split; apply sample_input; auto; try lia; left; reflexivity.
  - eauto.
Qed.

Example C48_witness A nt oaddr r : few nt ->
  returns (packed DT_UINT8) (sample DT_F32) (dequantize_call A nt oaddr DT_UINT8 DT_F32 f_half 2 RO_SET (bytes_for DT_UINT8 70) (sample DT_F32)) r ->
  exists o, r = Ok o /\ ieee_lt (f32_at o 0) (f32_at o 1).
Proof.
  intros Hn HR. assert (Hq : quant_type DT_UINT8) by (right; right; reflexivity). destruct (sample_len _ f32t) as [_ HL].
  assert (Z30 : (Z.abs 2 <= 2 ^ 30)%Z) by (cbn; lia). assert (Z19 : (Z.abs 2 <= 2 ^ 19)%Z) by (cbn; lia).
  assert (P : (0 < val f_half)%R) by (rewrite (proj2 half_ok); lra).
  destruct (C48_dequantize_order A nt oaddr DT_UINT8 f_half 2 _ _ _ r (sample_dq nt _ _ f32t Hq Hn) Z30 (proj1 half_ok) P HR) as (o & -> & _ & _ & H).
  exists o. split; auto. apply H; auto; try apply half_normal; rewrite ?HL; try lia. vm_compute. reflexivity.
Qed.

(** the negated sample *)
Definition neg_sample : mem := concat (map (fun i => le_bytes 4 (sbits i + (if sbits i <? 2 ^ 31 then 2 ^ 31 else - 2 ^ 31))%Z) (seq 0 70)).
Lemma neg_at i : i < 70 -> finite (elem_at DT_F32 neg_sample i) /\ val (elem_at DT_F32 neg_sample i) = (- val (elem_at DT_F32 (sample DT_F32) i))%R.
Proof.
  intros Hi. destruct (sample_elem DT_F32 i f32t Hi) as [_ ->].
  assert (E : elem_at DT_F32 neg_sample i = f32_of_bits (sbits i + (if sbits i <? 2 ^ 31 then 2 ^ 31 else - 2 ^ 31))%Z).
  { unfold elem_at, f32_at. f_equal.
    assert (H : forallb (fun i => (le_val (slice (4 * i) 4 neg_sample) =? sbits i + (if sbits i <? 2 ^ 31 then 2 ^ 31 else - 2 ^ 31))%Z) (seq 0 70) = true) by (vm_compute; reflexivity).
    rewrite forallb_forall in H. apply Z.eqb_eq, H, in_seq. lia. }
  rewrite E. unfold sbits, sval. mod5 i; (split; [reflexivity|]); unfold val; cbn; unfold F2R; cbn; lra.
Qed.
Lemma neg_len : length neg_sample = 280. Proof. vm_compute. reflexivity. Qed.
Example C49_witness A A' nt nt' oaddr oaddr' dq rm r r' : quant_type dq -> few nt -> few nt' ->
  returns (sample DT_F32) (sample_out dq) (quantize_call A nt oaddr DT_F32 dq f_half 1 rm thr4 (sample DT_F32) (sample_out dq)) r ->
  returns neg_sample (sample_out dq) (quantize_call A' nt' oaddr' DT_F32 dq f_half (code_max dq - 1) rm thr4 neg_sample (sample_out dq)) r' ->
  exists p p', r = Ok p /\ r' = Ok p' /\ code_at dq p' 3 = (code_max dq - code_at dq p 3)%Z.
Proof.
  intros Hq Hn Hn' HR HR'. destruct (sample_len _ f32t) as [_ HL].
  assert (Z22 : (Z.abs 1 <= 2 ^ 22)%Z) by (cbn; lia).
  destruct (C49_negation A A' nt nt' oaddr oaddr' DT_F32 dq f_half 1 rm thr4 (sample DT_F32) neg_sample (sample_out dq) (sample_out dq) r r') as (p & p' & H1 & H2 & H3); cbv zeta; auto.
  - apply sample_buffers; auto. left; reflexivity.
  - unfold buffers_ok. rewrite neg_len. change (numel DT_F32 280) with 70. split; [left; reflexivity|]. split; auto. split.
    + apply Forall_forall. intros x Hx. assert (H : forallb (fun x => (0 <=? x)%Z && (x <? 256)%Z) neg_sample = true) by (vm_compute; reflexivity).
      rewrite forallb_forall in H. specialize (H x Hx). unfold is_byte. lia.
    + split; [apply repeat_length|]. unfold sizes_ok, few in *. lia.
  - apply half_good.
  - intros _. split; [apply quarter_threshold|cbn; lia].
  - rewrite HL. intros i Hi. apply neg_at; auto.
  - rewrite HL. intros i Hi. split; apply sample_input; auto; left; reflexivity.
  - rewrite HL. intros i Hi. apply neg_at; auto.
  - exists p, p'. split; auto. split; auto. apply H3. rewrite HL. lia.
Qed.
(** power of two: the sample itself with k = 0 would be trivial, so the scale and the data are both doubled *)
Definition dbl_sample : mem := concat (map (fun i => le_bytes 4 (if sbits i =? 0 then 0 else sbits i + 2 ^ 23)%Z) (seq 0 70)).
Lemma dbl_at i : i < 70 -> finite (elem_at DT_F32 dbl_sample i) /\ val (elem_at DT_F32 dbl_sample i) = (val (elem_at DT_F32 (sample DT_F32) i) * bpow radix2 1)%R.
Proof.
  intros Hi. destruct (sample_elem DT_F32 i f32t Hi) as [_ ->].
  assert (E : elem_at DT_F32 dbl_sample i = f32_of_bits (if sbits i =? 0 then 0 else sbits i + 2 ^ 23)%Z).
  { unfold elem_at, f32_at. f_equal.
    assert (H : forallb (fun i => (le_val (slice (4 * i) 4 dbl_sample) =? (if sbits i =? 0 then 0 else sbits i + 2 ^ 23))%Z) (seq 0 70) = true) by (vm_compute; reflexivity).
    rewrite forallb_forall in H. apply Z.eqb_eq, H, in_seq. lia. }
  rewrite E. change (bpow radix2 1) with 2%R. unfold sbits, sval. mod5 i; (split; [reflexivity|]); unfold val; cbn; unfold F2R; cbn; lra.
Qed.
Lemma dbl_len : length dbl_sample = 280. Proof. vm_compute. reflexivity. Qed.
Lemma one_good : good_scale f_one.
Proof.
  destruct f_one_ok as [_ V]. split; rewrite V; [lra|]. replace (1 / 1)%R with 1%R by lra. rewrite (RN32_fmt 1) by (apply (fmt32_int 1); lia).
  rewrite Rabs_pos_eq by lra. change 1%R with (bpow radix2 0). apply bpow_lt. lia.
Qed.
Example C49_power_witness A A' nt nt' oaddr oaddr' dq rm r r' : quant_type dq -> few nt -> few nt' ->
  returns (sample DT_F32) (sample_out dq) (quantize_call A nt oaddr DT_F32 dq f_half 1 rm thr4 (sample DT_F32) (sample_out dq)) r ->
  returns dbl_sample (sample_out dq) (quantize_call A' nt' oaddr' DT_F32 dq f_one 1 rm thr4 dbl_sample (sample_out dq)) r' ->
  exists p p', r = Ok p /\ r' = Ok p' /\ code_at dq p' 3 = code_at dq p 3.
Proof.
  intros Hq Hn Hn' HR HR'. destruct (sample_len _ f32t) as [_ HL]. destruct half_ok as [_ VH]. destruct f_one_ok as [_ VO].
  destruct (C49_power_of_two A A' nt nt' oaddr oaddr' DT_F32 dq f_half f_one 1 rm thr4 1 (sample DT_F32) dbl_sample (sample_out dq) (sample_out dq) r r') as (p & p' & H1 & H2 & H3); cbv zeta; auto.
  - apply sample_buffers; auto. left; reflexivity.
  - unfold buffers_ok. rewrite dbl_len. change (numel DT_F32 280) with 70. split; [left; reflexivity|]. split; auto. split.
    + apply Forall_forall. intros x Hx. assert (H : forallb (fun x => (0 <=? x)%Z && (x <? 256)%Z) dbl_sample = true) by (vm_compute; reflexivity).
      rewrite forallb_forall in H. specialize (H x Hx). unfold is_byte. lia.
    + split; [apply repeat_length|]. unfold sizes_ok, few in *. lia.
  - apply half_good.
  - apply one_good.
  - rewrite VH. split; [lra|]. rewrite Rabs_pos_eq by lra. change (/ 2)%R with (bpow radix2 (-1)). apply bpow_le. lia.
  - rewrite VO. split; [lra|]. rewrite Rabs_pos_eq by lra. change 1%R with (bpow radix2 0). apply bpow_le. lia.
  - rewrite VH, VO. change (bpow radix2 1) with 2%R. lra.
  - intros _. split; [apply quarter_threshold|cbn; lia].
  - intros _. cbn; lia.
  - rewrite HL. intros i Hi. apply dbl_at; auto.
  - rewrite HL. intros i Hi. split; apply sample_input; auto; try (left; reflexivity); cbn; lia.
  - rewrite HL. intros i Hi. apply dbl_at; auto.
  - exists p, p'. split; auto. split; auto. apply H3. rewrite HL. lia.
Qed.

(** f32 and bf16 versions of the sample have the same range: same parameters, on different CPUs, cut differently *)
Example C50_witness a a' dq : a <> SSE42 -> a' <> SSE42 -> quant_type dq ->
  compute_quant_config_from_data a DT_F32 dq (sample DT_F32) [(0, 70)] = compute_quant_config_from_data a' DT_BF16 dq (sample DT_BF16) cut3.
Proof.
  intros Ha Ha' Hq. apply (C50_range_only a a' DT_F32 DT_BF16 dq (sample DT_F32) (sample DT_BF16) 70 70 [(0, 70)] cut3 (-3) 200); auto;
    try (left; reflexivity); try (right; reflexivity); try (apply sample_finite; (left; reflexivity) || (right; reflexivity)); try apply cut3_ok; try apply whole_ok;
    try (apply sample_range; (left; reflexivity) || (right; reflexivity)).
Qed.
