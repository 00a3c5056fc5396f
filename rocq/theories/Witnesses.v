(** Witnesses.v -- for the theorems of the Props files: concrete, non-trivial calls that meet their hypotheses.
    Each example picks buffers (70 elements: vector blocks and tails, several threads), proves every hypothesis, applies the theorem
    and keeps a concrete consequence. *)
From Coq Require Import ZArith List Lia Bool Arith ZifyBool ZifyNat Permutation Reals Lra.
From Flocq Require Import Core Relative Binary Bits.
From Verif Require Import Base Floats Simd Dtypes Spec ApiSpec PathSpec ConfigSpec QuantKernels DequantKernels ExecFacts FloatFacts QuantFacts QuantKernelFacts
  QuantGenericFacts DequantFacts DequantGenericFacts QuantLanes Context ContextFacts Footprint QuantizeFacts DequantizeFacts Api PropsQuantize Schedule
  PropsMemory FloatFacts2 PropsDequantize PropsRoundTrip Bf16Spec Bf16Facts RoundTripFacts PropsIdempotent PropsBf16 FloatFacts3 PropsDequantBf16
  PropsBf16Zero PropsPaths PropsExtreme PropsDispatch PropsZeroPoint PropsStochastic MinMax MinMaxFacts ConfigFacts PropsConfig PropsRepresent Capi PropsCapi.
Import ListNotations.

Ltac Zify.zify_post_hook ::= Z.div_mod_to_equations.

(** ** The sample data: 70 elements 0, 1.25, -3, 200, 0.75, 0, 1.25, ... as f32 and as bf16; scale 1/2 *)
Definition sbits (i : nat) : Z := nth (i mod 5) [0; 0x3fa00000; 0xc0400000; 0x43480000; 0x3f400000]%Z 0%Z.
Definition sval (i : nat) : R := nth (i mod 5) [0; 5 / 4; -3; 200; 3 / 4]%R 0%R.
Definition skc (i : nat) : Z := nth (i mod 5) [0; 3; -6; 400; 2]%Z 0%Z.   (* round (2 * sval i), ties away *)
Definition sample (d : dtype) : mem :=
  match d with DT_BF16 => concat (map (fun i => le_bytes 2 (sbits i / 65536)) (seq 0 70)) | _ => concat (map (fun i => le_bytes 4 (sbits i)) (seq 0 70)) end.
Definition sample_out (dq : dtype) : mem := repeat 0xaa%Z (bytes_for dq 70).
(** packed codes to dequantize (one spare byte at the end), and a float output buffer *)
Definition packed (dq : dtype) : mem := map (fun k => (Z.of_nat k * 37) mod 256)%Z (seq 0 (S (bytes_for dq 70))).

Lemma sample_bytes d : Forall is_byte (sample d).
Proof.
  apply Forall_forall. intros x Hx. assert (H : forallb (fun x => (0 <=? x)%Z && (x <? 256)%Z) (sample d) = true) by (destruct d; vm_compute; reflexivity).
  rewrite forallb_forall in H. specialize (H x Hx). unfold is_byte. lia.
Qed.
Lemma sample_len d : float_type d -> length (sample d) = stride d * 70 /\ numel d (length (sample d)) = 70.
Proof. intros [->| ->]; split; vm_compute; reflexivity. Qed.
Lemma sample_bits_at d i : float_type d -> i < 70 -> elem_at d (sample d) i = f32_of_bits (sbits i).
Proof.
  intros [->| ->] Hi; unfold elem_at, f32_at; f_equal.
  - assert (H : forallb (fun i => (le_val (slice (4 * i) 4 (sample DT_F32)) =? sbits i)%Z) (seq 0 70) = true) by (vm_compute; reflexivity).
    rewrite forallb_forall in H. apply Z.eqb_eq, H, in_seq. lia.
  - assert (H : forallb (fun i => (bf16_at (sample DT_BF16) i * 65536 =? sbits i)%Z) (seq 0 70) = true) by (vm_compute; reflexivity).
    rewrite forallb_forall in H. apply Z.eqb_eq, H, in_seq. lia.
Qed.
Ltac mod5 i := let H := fresh "H" in
  assert (H : i mod 5 = 0 \/ i mod 5 = 1 \/ i mod 5 = 2 \/ i mod 5 = 3 \/ i mod 5 = 4) by lia; destruct H as [H|[H|[H|[H|H]]]]; rewrite !H; clear H.
Lemma sample_elem d i : float_type d -> i < 70 -> finite (elem_at d (sample d) i) /\ val (elem_at d (sample d) i) = sval i.
Proof.
  intros Hd Hi. rewrite sample_bits_at by auto. unfold sbits, sval. mod5 i; (split; [reflexivity|]); unfold val; cbn; unfold F2R; cbn; lra.
Qed.
Lemma half_ok : finite f_half /\ val f_half = (/ 2)%R.
Proof. split; [reflexivity|]. unfold val; cbn; unfold F2R; cbn; lra. Qed.
Lemma half_normal : normal_scale f_half.
Proof. destruct half_ok as [F V]. apply moderate_normal; auto. rewrite V. lra. Qed.
Lemma half_good : good_scale f_half.
Proof. apply normal_good, half_normal. Qed.
Lemma half_bf16_scale : bf16_scale f_half.
Proof.
  destruct half_ok as [F V]. split; auto. rewrite V, Rabs_pos_eq by lra. change (/ 2)%R with (bpow radix2 (-1)). split; apply bpow_le; lia.
Qed.
Lemma fmt_quarter k : (Z.abs k <= 2 ^ 20)%Z -> fmt32 (IZR k / 4).
Proof.
  intros Hk. replace (IZR k / 4)%R with (F2R (Float radix2 k (-2))).
  - apply generic_format_FLT. exists (Float radix2 k (-2)); auto; cbn [Fnum Fexp]; [change (radix2 ^ 24)%Z with (2 ^ 24)%Z|]; lia.
  - unfold F2R. cbn. lra.
Qed.
Lemma sample_scaled d i : float_type d -> i < 70 -> scaled (val f_half) (val (elem_at d (sample d) i)) = (2 * sval i)%R.
Proof.
  intros Hd Hi. destruct (sample_elem d i Hd Hi) as [_ ->]. destruct half_ok as [_ ->]. unfold scaled.
  replace (1 / / 2)%R with 2%R by lra. rewrite (RN32_fmt 2) by (apply (fmt32_int 2); lia).
  replace (sval i * 2)%R with (IZR (nth (i mod 5) [0; 10; -24; 1600; 6]%Z 0%Z) / 4)%R by (unfold sval; mod5 i; cbn; lra).
  rewrite RN32_fmt; [unfold sval; mod5 i; cbn; lra|]. apply fmt_quarter. mod5 i; cbn; lia.
Qed.
Lemma sample_round i : round_half_away (2 * sval i) = skc i.
Proof.
  unfold sval, skc, round_half_away. mod5 i; cbn [nth];
    first [rewrite Rlt_bool_true by lra | rewrite Rlt_bool_false by lra].
  - replace (2 * 0 + / 2)%R with (/ 2)%R by lra. apply Zfloor_imp. cbn; lra.
  - replace (2 * (5 / 4) + / 2)%R with 3%R by lra. apply (Zfloor_IZR 3).
  - replace (- (2 * -3) + / 2)%R with (6 + / 2)%R by lra. rewrite (Zfloor_imp 6); [reflexivity|cbn; lra].
  - replace (2 * 200 + / 2)%R with (400 + / 2)%R by lra. apply Zfloor_imp; cbn; lra.
  - replace (2 * (3 / 4) + / 2)%R with 2%R by lra. apply (Zfloor_IZR 2).
Qed.
Lemma sample_abs i : (Rabs (2 * sval i) <= 400)%R /\ Rabs (2 * sval i) <> pred_half.
Proof.
  pose proof pred_half_bounds as PH. unfold sval. mod5 i; cbn [nth].
  all: match goal with |- context [Rabs ?t] => assert (Q : (Rabs t = 0 \/ Rabs t = 5 / 2 \/ Rabs t = 6 \/ Rabs t = 400 \/ Rabs t = 3 / 2)%R) by (unfold Rabs; destruct (Rcase_abs t); lra) end; split; lra.
Qed.
Lemma sample_quantizable d i : float_type d -> i < 70 -> quantizable f_half (elem_at d (sample d) i).
Proof.
  intros Hd Hi. split; [apply (sample_elem d i Hd Hi)|]. rewrite sample_scaled by auto. destruct (sample_abs i) as [B _].
  eapply Rle_lt_trans; [exact B|]. apply Rlt_trans with (bpow radix2 10); [change (bpow radix2 10) with 1024%R; lra|apply bpow_lt; lia].
Qed.
Lemma sample_nearest A d i : float_type d -> i < 70 -> nearest_ok A f_half (elem_at d (sample d) i).
Proof. intros Hd Hi. split; [apply sample_quantizable; auto|]. intros _. rewrite sample_scaled by auto. apply sample_abs. Qed.
Lemma sample_code d dq zp i : float_type d -> i < 70 -> quant_code dq (val f_half) zp (val (elem_at d (sample d) i)) = clamp 0 (code_max dq) (skc i + zp).
Proof. intros Hd Hi. unfold quant_code. rewrite sample_scaled, sample_round by auto. reflexivity. Qed.
Definition few (nt : nat) : Prop := 1 <= nt <= 1000.
Lemma sample_sizes d nt : float_type d -> few nt -> sizes_ok (length (sample d)) 70 nt.
Proof. intros Hd Hn. destruct (sample_len d Hd) as [-> _]. unfold sizes_ok, few in *. destruct Hd as [->| ->]; cbn [stride]; lia. Qed.
Lemma sample_buffers nt d dq : float_type d -> quant_type dq -> few nt -> buffers_ok nt d dq (sample d) (sample_out dq).
Proof.
  intros Hd Hq Hn. destruct (sample_len d Hd) as [_ HL]. unfold buffers_ok. rewrite HL.
  split; auto. split; auto. split; [apply sample_bytes|]. split; [apply repeat_length|apply sample_sizes; auto].
Qed.
Lemma quarter_threshold : threshold (f32_of_bits 0x3e800000).
Proof. split; [reflexivity|]. unfold val; cbn; unfold F2R; cbn; lra. Qed.
Lemma sample_input A d rm i zp : float_type d -> i < 70 -> (Z.abs zp <= 2 ^ 22)%Z -> input_ok A rm f_half zp (f32_of_bits 0x3e800000) (elem_at d (sample d) i).
Proof.
  intros Hd Hi Hz. destruct rm; cbn [input_ok].
  - split; auto. apply sample_nearest; auto.
  - split; [apply sample_quantizable; auto|]. split; [apply quarter_threshold|]. lia.
Qed.

(** ** quantize *)
Example C01_witness A nt oaddr din dout thr : float_type din -> quant_type dout -> few nt ->
  exists o, returns (sample din) (sample_out dout) (quantize_call A nt oaddr din dout f_half 2 RM_NEAREST thr (sample din) (sample_out dout)) (Ok o) /\
    forall i, i < 70 -> code_at dout o i = clamp 0 (2 ^ Z.of_nat (bit_size dout) - 1) (skc i + 2).
Proof.
  intros Hd Hq Hn. destruct (sample_len din Hd) as [_ HL].
  destruct (returns_total (sample din) (sample_out dout) (quantize_call A nt oaddr din dout f_half 2 RM_NEAREST thr (sample din) (sample_out dout))) as [r HR].
  assert (Z2 : (Z.abs 2 <= 2 ^ 22)%Z) by lia.
  destruct (C01_quantize_nearest A nt oaddr din dout f_half 2 thr (sample din) (sample_out dout) r (sample_buffers nt din dout Hd Hq Hn) half_good Z2) as (o & -> & _ & HC); auto.
  { rewrite HL. intros. apply sample_nearest; auto. }
  exists o. split; auto. rewrite HL in HC. intros i Hi. rewrite HC by auto. apply (sample_code din dout 2 i Hd Hi).
Qed.
Notation thr4 := (f32_of_bits 0x3e800000).   (* 1/4 *)
Lemma st4 rm : rm = RM_STOCHASTIC -> threshold thr4 /\ (Z.abs 2 <= 2 ^ 62)%Z.
Proof. split; [apply quarter_threshold|lia]. Qed.
Lemma nz2 : (Z.abs 2 <= 2 ^ 22)%Z.
Proof. lia. Qed.
Lemma quant_sample A nt oaddr din dout rm : float_type din -> quant_type dout -> few nt ->
  exists o, returns (sample din) (sample_out dout) (quantize_call A nt oaddr din dout f_half 2 rm thr4 (sample din) (sample_out dout)) (Ok o) /\
    length o = bytes_for dout 70 /\ Forall is_byte o /\ forall i, i < 70 -> code_at dout o i = expected_code rm dout f_half 2 thr4 (elem_at din (sample din) i).
Proof.
  intros Hd Hq Hn. destruct (sample_len din Hd) as [_ HL].
  destruct (returns_total (sample din) (sample_out dout) (quantize_call A nt oaddr din dout f_half 2 rm thr4 (sample din) (sample_out dout))) as [r HR].
  destruct (quantize_codes A nt oaddr din dout f_half 2 rm thr4 _ _ r (sample_buffers nt din dout Hd Hq Hn) half_good (st4 rm) (fun _ => nz2)) as (o & -> & L & B & HC); auto.
  { rewrite HL. intros. apply sample_input; auto. lia. }
  rewrite HL in HC. exists o. split; auto. split; [rewrite L; apply repeat_length|]. auto.
Qed.

(** the first byte of the packed uint4 output: codes 2 and 5 *)
Example C02_witness A nt oaddr : few nt ->
  exists o, returns (sample DT_F32) (sample_out DT_UINT4) (quantize_call A nt oaddr DT_F32 DT_UINT4 f_half 2 RM_NEAREST thr4 (sample DT_F32) (sample_out DT_UINT4)) (Ok o) /\
    length o = 35 /\ nth 0 o 0%Z = 0x52%Z /\ nth 1 o 0%Z = 0xf0%Z.
Proof.
  intros Hn. assert (Hd : float_type DT_F32) by (left; reflexivity). assert (Hq : quant_type DT_UINT4) by (right; left; reflexivity). destruct (sample_len _ Hd) as [_ HL].
  destruct (quant_sample A nt oaddr DT_F32 DT_UINT4 RM_NEAREST Hd Hq Hn) as (o & HR & Lo & _).
  destruct (C02_layout A nt oaddr DT_F32 DT_UINT4 f_half 2 RM_NEAREST thr4 _ _ (Ok o) (sample_buffers nt _ _ Hd Hq Hn) half_good (st4 _) (fun _ => nz2)) as (o' & E & L & HB & _); auto.
  { rewrite HL. intros. apply sample_input; auto. lia. }
  injection E as <-. exists o. split; auto. split; [rewrite L; reflexivity|]. change (bytes_for DT_UINT4 70) with 35 in Lo.
  rewrite HL in HB. split; rewrite HB by lia; unfold packed_byte; change (seq 0 (codes_per_byte DT_UINT4)) with [0; 1]; cbn [map fold_right]; cbv zeta.
  - change ((codes_per_byte DT_UINT4 * 0 + 0)%nat) with 0. change ((codes_per_byte DT_UINT4 * 0 + 1)%nat) with 1. cbn [Nat.ltb Nat.leb expected_code].
    rewrite !sample_code by (auto; lia). reflexivity.
  - change ((codes_per_byte DT_UINT4 * 1 + 0)%nat) with 2. change ((codes_per_byte DT_UINT4 * 1 + 1)%nat) with 3. cbn [Nat.ltb Nat.leb expected_code].
    rewrite !sample_code by (auto; lia). reflexivity.
Qed.

(** C03, C04, C05, C25: such calls schedule [nt] jobs *)
Lemma jobs_sample A nt oaddr din dout scale zp rm thr : float_type din -> quant_type dout -> few nt ->
  exists jobs, quantize A nt oaddr (Z.of_nat (length (sample din))) din (Z.of_nat (bytes_for dout 70)) dout scale zp rm thr = Ok jobs.
Proof.
  intros Hd Hq Hn. destruct (sample_len din Hd) as [_ HL]. eexists. apply quantize_jobs; auto; rewrite HL; auto. apply sample_sizes; auto.
Qed.
Example C03_witness A nt oaddr scale zp rm thr : few nt ->
  exists jobs, quantize A nt oaddr 280 DT_F32 18 DT_UINT2 scale zp rm thr = Ok jobs /\ length jobs = nt /\
    (exists j a, In j jobs /\ In a j /\ touches_out a 17) /\ (forall j a, In j jobs -> In a j -> ~ touches_out a 18).
Proof.
  intros Hn. assert (Hd : float_type DT_F32) by (left; reflexivity). assert (Hq : quant_type DT_UINT2) by (left; reflexivity).
  destruct (jobs_sample A nt oaddr DT_F32 DT_UINT2 scale zp rm thr Hd Hq Hn) as [jobs HJ]. exists jobs. split; [exact HJ|].
  destruct (C03_footprint A nt oaddr DT_F32 DT_UINT2 scale zp rm thr 280 18 jobs Hd Hq eq_refl (sample_sizes DT_F32 nt Hd Hn) HJ) as (L & _ & W & C).
  split; auto. split; [apply C; lia|]. intros j a Hj Ha T. specialize (W j a 18 Hj Ha T). lia.
Qed.
Lemma slice_app_l a l (m x : mem) : a + l <= length m -> slice a l (m ++ x) = slice a l m.
Proof. intros H. unfold slice. rewrite skipn_app, firstn_app, skipn_length. replace (l - (length m - a)) with 0 by lia. rewrite firstn_O, app_nil_r. reflexivity. Qed.
Example C03_frame_witness A nt oaddr r r' : few nt ->
  let inm := sample DT_F32 ++ [1; 2; 3]%Z in let inm' := sample DT_F32 ++ [9]%Z in
  let outm := sample_out DT_UINT4 ++ [7; 7]%Z in let outm' := repeat 0%Z 36 in
  let call := quantize A nt oaddr 280 DT_F32 35 DT_UINT4 f_half 2 RM_NEAREST thr4 in
  returns inm outm call r -> returns inm' outm' call r' ->
  exists o o', r = Ok o /\ r' = Ok o' /\ firstn 35 o = firstn 35 o' /\ nth 36 o 0%Z = 7%Z /\ nth 35 o' 0%Z = 0%Z.
Proof.
  intros Hn inm inm' outm outm' call HR HR'. assert (Hd : float_type DT_F32) by (left; reflexivity). assert (Hq : quant_type DT_UINT4) by (right; left; reflexivity).
  destruct (C03_frame A nt oaddr DT_F32 DT_UINT4 f_half 2 RM_NEAREST thr4 inm inm' outm outm' 280 35 r r') as (o & o' & -> & -> & L & L' & F & F' & E); auto.
  - apply Forall_app. split; [apply sample_bytes|repeat constructor; unfold is_byte; lia].
  - apply Forall_app. split; [apply sample_bytes|repeat constructor; unfold is_byte; lia].
  - vm_compute; lia.
  - vm_compute; lia.
  - vm_compute; lia.
  - vm_compute; lia.
  - apply (sample_sizes DT_F32 nt Hd Hn).
  - apply half_good.
  - apply st4.
  - intros _. apply nz2.
  - intros i Hi. change (numel DT_F32 280) with 70 in Hi. replace (elem_at DT_F32 inm i) with (elem_at DT_F32 (sample DT_F32) i); [apply sample_input; auto; lia|].
    unfold elem_at, f32_at, inm. rewrite slice_app_l; auto. change (length (sample DT_F32)) with 280. lia.
  - exists o, o'. split; auto. split; auto. split; auto. rewrite F, F' by lia. split; reflexivity.
Qed.
(** one thread and many threads, generic and AVX-512 kernels, nearest and stochastic *)
Example C04_witness rm r r' :
  returns (sample DT_F32) (sample_out DT_UINT2) (quantize_call GENERIC 1 0 DT_F32 DT_UINT2 f_half 2 rm thr4 (sample DT_F32) (sample_out DT_UINT2)) r ->
  returns (sample DT_F32) (sample_out DT_UINT2) (quantize_call AVX512F 7 3 DT_F32 DT_UINT2 f_half 2 rm thr4 (sample DT_F32) (sample_out DT_UINT2)) r' ->
  r = r' /\ exists o, r = Ok o.
Proof.
  assert (Hd : float_type DT_F32) by (left; reflexivity). assert (Hq : quant_type DT_UINT2) by (left; reflexivity). destruct (sample_len _ Hd) as [_ HL].
  apply C04_threads; try (apply sample_buffers; auto; unfold few; lia); try apply half_good; try apply st4; try (intros _; apply nz2);
    rewrite HL; intros; apply sample_input; auto; lia.
Qed.
Example C05_witness A oaddr scale zp rm thr : exists jobs,
  quantize A 7 oaddr 140 DT_BF16 35 DT_UINT4 scale zp rm thr = Ok jobs /\ length jobs = 7 /\ no_shared_output jobs.
Proof.
  assert (Hd : float_type DT_BF16) by (right; reflexivity). assert (Hq : quant_type DT_UINT4) by (right; left; reflexivity). assert (Hn : few 7) by (unfold few; lia).
  destruct (jobs_sample A 7 oaddr DT_BF16 DT_UINT4 scale zp rm thr Hd Hq Hn) as [jobs HJ]. exists jobs. split; [exact HJ|].
  apply (C05_quantize_no_shared_output A 7 oaddr DT_BF16 DT_UINT4 scale zp rm thr 140 35 jobs Hd Hq eq_refl (sample_sizes DT_BF16 7 Hd Hn) HJ).
Qed.
(** 70 uint2 elements on 7 threads: boundaries 0 8 20 28 40 48 60 70 or the like, all multiples of four except the last *)
Example C06_witness scale zp rm op thr : 
  map (fun t => partition_row (mk_desc CMD_QUANT 70 scale zp DT_F32 DT_UINT2 rm op thr) (Z.of_nat t) 7) (seq 0 7) =
  map (fun p => Ok (Some p)) [(0, 8); (8, 12); (20, 8); (28, 12); (40, 8); (48, 12); (60, 10)]%Z.
Proof. vm_compute. reflexivity. Qed.

(** ** dequantize: 70 codes of [packed], over the old contents [sample] *)
Lemma packed_bytes dq : Forall is_byte (packed dq).
Proof. apply Forall_forall. intros x Hx. apply in_map_iff in Hx. destruct Hx as (k & <- & _). unfold is_byte. lia. Qed.
Lemma packed_len dq : length (packed dq) = S (bytes_for dq 70).
Proof. unfold packed. rewrite map_length, seq_length. reflexivity. Qed.
Lemma sample_dq nt dq d : float_type d -> quant_type dq -> few nt -> dq_buffers nt dq d (packed dq) (bytes_for dq 70) (sample d).
Proof.
  intros Hd Hq Hn. destruct (sample_len d Hd) as [_ HL]. unfold dq_buffers. rewrite HL, packed_len.
  split; auto. split; auto. split; [apply packed_bytes|]. split; [reflexivity|]. split; [lia|]. split; [apply sample_sizes; auto|lia].
Qed.
(** code 1 of the uint8 codes is 37; with zero point 40 and scale 1/2 it becomes -1.5 *)
Example C07_witness A nt oaddr : few nt ->
  exists o, returns (packed DT_UINT8) (sample DT_F32) (dequantize_call A nt oaddr DT_UINT8 DT_F32 f_half 40 RO_SET 70 (sample DT_F32)) (Ok o) /\
    finite (f32_at o 1) /\ val (f32_at o 1) = (-3 / 2)%R.
Proof.
  intros Hn. assert (Hd : float_type DT_F32) by (left; reflexivity). assert (Hq : quant_type DT_UINT8) by (right; right; reflexivity).
  destruct (returns_total (packed DT_UINT8) (sample DT_F32) (dequantize_call A nt oaddr DT_UINT8 DT_F32 f_half 40 RO_SET 70 (sample DT_F32))) as [r HR].
  destruct (C07_dequantize_set_f32 A nt oaddr DT_UINT8 f_half 40 (packed DT_UINT8) 70 (sample DT_F32) r (sample_dq nt _ _ Hd Hq Hn)) as (o & -> & L & _ & V & _); auto; try lia.
  exists o. split; auto. change (numel DT_F32 (length (sample DT_F32))) with 70 in V.
  assert (C : code_at DT_UINT8 (packed DT_UINT8) 1 = 37%Z) by (vm_compute; reflexivity). specialize (V 1 ltac:(lia) (proj1 half_ok)). rewrite C in V.
  assert (P : RN32 (RN32 (IZR (37 - 40)) * val f_half) = (-3 / 2)%R).
  { change (37 - 40)%Z with (-3)%Z. destruct half_ok as [_ ->]. rewrite (RN32_fmt (IZR (-3))) by (apply (fmt32_int (-3)); lia).
    replace (-3 * / 2)%R with (IZR (-6) / 4)%R by lra. rewrite RN32_fmt by (apply fmt_quarter; lia). lra. }
  cbv zeta in V. rewrite P in V. apply V. unfold max32. replace (Rabs (-3 / 2)) with (3 / 2)%R by (rewrite <- Rabs_Ropp, Rabs_pos_eq; lra).
  apply Rlt_trans with (bpow radix2 10); [change (bpow radix2 10) with 1024%R; lra|apply bpow_lt; lia].
Qed.
(** the uint2 tail (70 mod 4 = 2): element 68 is overwritten, element 67 accumulates *)
Example C08_witness A nt oaddr r : few nt ->
  returns (packed DT_UINT2) (sample DT_F32) (dequantize_call A nt oaddr DT_UINT2 DT_F32 f_half 0 RO_ADD 18 (sample DT_F32)) r ->
  exists o, r = Ok o /\ f32_at o 67 = fadd (f32_at (sample DT_F32) 67) (fmul (f32_of_Z (code_at DT_UINT2 (packed DT_UINT2) 67 - 0)) f_half) /\
    f32_at o 68 = fmul (f32_of_Z (code_at DT_UINT2 (packed DT_UINT2) 68 - 0)) f_half.
Proof.
  intros Hn HR. assert (Hd : float_type DT_F32) by (left; reflexivity). assert (Hq : quant_type DT_UINT2) by (left; reflexivity).
  assert (Z0 : (Z.abs 0 <= 2 ^ 30)%Z) by lia. pose proof (sample_dq nt DT_UINT2 DT_F32 Hd Hq Hn) as HB.
  destruct (C08_dequantize_add_f32 A nt oaddr DT_UINT2 f_half 0 (packed DT_UINT2) 18 (sample DT_F32) r HB Z0 (proj1 half_ok) HR) as (o & -> & L & V & _).
  destruct (C08_add_uint2_tail_refuted A nt oaddr f_half 0 (packed DT_UINT2) 18 (sample DT_F32) (Ok o) 68 HB Z0 (proj1 half_ok) HR) as (o' & E & T).
  { change (numel DT_F32 (length (sample DT_F32))) with 70. lia. }
  injection E as <-. exists o. split; auto. split; auto. apply V; change (numel DT_F32 (length (sample DT_F32))) with 70; lia.
Qed.
Example C07_bf16_witness A nt oaddr dq r : quant_type dq -> few nt ->
  returns (packed dq) (sample DT_BF16) (dequantize_call A nt oaddr dq DT_BF16 f_half 1 RO_SET (bytes_for dq 70) (sample DT_BF16)) r ->
  exists o, r = Ok o /\ forall i, i < 70 ->
    (Rabs (val (elem_at DT_BF16 o i) - IZR (code_at dq (packed dq) i - 1) * / 2) <= / 256 * Rabs (IZR (code_at dq (packed dq) i - 1) * / 2) + bpow radix2 (-13) * / 2)%R.
Proof.
  intros Hq Hn HR. assert (Hd : float_type DT_BF16) by (right; reflexivity). pose proof (sample_dq nt dq DT_BF16 Hd Hq Hn) as HB.
  assert (Hz : (0 <= 1 <= code_max dq)%Z) by (destruct Hq as [->|[->| ->]]; cbn; lia).
  destruct (C07_bf16_accuracy A nt oaddr dq f_half 1 (packed dq) (bytes_for dq 70) (sample DT_BF16) r HB Hz half_bf16_scale (sample_bytes _) HR) as (o & -> & V).
  exists o. split; auto. change (numel DT_BF16 (length (sample DT_BF16))) with 70 in V. intros i Hi. destruct (V i Hi) as [_ K].
  destruct half_ok as [_ Vh]. rewrite Vh, (Rabs_pos_eq (/ 2)) in K by lra. exact K.
Qed.
Example C09_witness A nt oaddr scale zp op : few nt ->
  exists jobs, dequantize A nt oaddr 35 DT_UINT4 280 DT_F32 scale zp op = Ok jobs /\ length jobs = nt /\
    (forall j a, In j jobs -> In a j -> ~ touches_in a 35) /\ exists j a, In j jobs /\ In a j /\ touches_out a 279.
Proof.
  intros Hn. assert (Hd : float_type DT_F32) by (left; reflexivity). assert (Hq : quant_type DT_UINT4) by (right; left; reflexivity).
  pose proof (sample_sizes DT_F32 nt Hd Hn) as HS.
  eexists. split; [apply (dequantize_jobs A nt oaddr 35 DT_UINT4 280 DT_F32); auto|].
  destruct (C09_footprint A nt oaddr DT_UINT4 DT_F32 scale zp op 35 280 _ Hq Hd eq_refl HS (dequantize_jobs A nt oaddr 35 DT_UINT4 280 DT_F32 scale zp op Hq Hd eq_refl HS))
    as (L & W & _ & _ & C).
  split; auto. split.
  - intros j a Hj Ha T. specialize (W ltac:(intros (X & _); discriminate) j a 35 Hj Ha T). lia.
  - apply C. cbn. lia.
Qed.
(** 4 uint2 codes in one byte *)
Example C09_overread_witness A scale zp op r :
  returns [0xe4]%Z (repeat 0%Z 16) (dequantize_call A 1 0 DT_UINT2 DT_F32 scale zp op 1 (repeat 0%Z 16)) r -> r = UB.
Proof.
  apply (C09_uint2_overread_refuted A 1 0 scale zp op [0xe4]%Z (repeat 0%Z 16)); try reflexivity; [unfold sizes_ok|]; change (numel DT_F32 (length (repeat 0%Z 16))) with 4; cbn [length repeat]; lia.
Qed.

(** ** both directions *)
Example C13_witness A nt oaddr rm r : few nt ->
  returns (sample DT_F32) (sample_out DT_UINT4) (quantize_call A nt oaddr DT_F32 DT_UINT4 f_half 2 rm thr4 (sample DT_F32) (sample_out DT_UINT4)) r ->
  exists o, r = Ok o /\ code_at DT_UINT4 o 0 = 2%Z /\ code_at DT_UINT4 o 65 = 2%Z.
Proof.
  intros Hn HR. assert (Hd : float_type DT_F32) by (left; reflexivity). assert (Hq : quant_type DT_UINT4) by (right; left; reflexivity). destruct (sample_len _ Hd) as [_ HL].
  destruct (C13_zero_quantizes_to_zero_point A nt oaddr DT_F32 DT_UINT4 f_half 2 rm thr4 _ _ r (sample_buffers nt _ _ Hd Hq Hn) half_good) as (o & -> & HC); auto.
  - cbn; lia.
  - intros; apply quarter_threshold.
  - rewrite HL. intros; apply sample_input; auto; lia.
  - rewrite HL in HC. exists o. split; auto. split; apply HC; try lia; apply (sample_elem DT_F32); auto; lia.
Qed.
(** uint8, zero point 74: elements 2 and 258/... of [packed] hold code 74 *)
Example C13_dequantize_witness A nt oaddr r r' : few nt -> 
  returns (packed DT_UINT8) (sample DT_F32) (dequantize_call A nt oaddr DT_UINT8 DT_F32 f_half 74 RO_SET 70 (sample DT_F32)) r ->
  returns (packed DT_UINT8) (sample DT_BF16) (dequantize_call A nt oaddr DT_UINT8 DT_BF16 f_half 74 RO_SET 70 (sample DT_BF16)) r' ->
  exists o o', r = Ok o /\ r' = Ok o' /\ slice 8 4 o = [0; 0; 0; 0]%Z /\ bf16_at o' 2 = 0%Z.
Proof.
  intros Hn HR HR'. assert (Hd : float_type DT_F32) by (left; reflexivity). assert (Hd' : float_type DT_BF16) by (right; reflexivity).
  assert (Hq : quant_type DT_UINT8) by (right; right; reflexivity). destruct half_ok as [Fh Vh].
  assert (Hp : (0 < val f_half)%R) by (rewrite Vh; lra). assert (Z30 : (Z.abs 74 <= 2 ^ 30)%Z) by lia. assert (Z22 : (Z.abs 74 <= 2 ^ 22)%Z) by lia.
  destruct (C13_zero_point_dequantizes_to_zero A nt oaddr DT_UINT8 f_half 74 _ 70 _ r (sample_dq nt _ _ Hd Hq Hn) Z30 Fh Hp HR) as (o & -> & H1).
  destruct (C13_zero_point_dequantizes_to_zero_bf16 A nt oaddr DT_UINT8 f_half 74 _ 70 _ r' (sample_dq nt _ _ Hd' Hq Hn) Z22 (sample_bytes _) Fh Hp (or_intror eq_refl) HR') as (o' & -> & H2).
  exists o, o'. split; auto. split; auto. split; [apply (H1 2)|apply (H2 2)]; try (vm_compute; reflexivity); [change (numel DT_F32 (length (sample DT_F32))) with 70|change (numel DT_BF16 (length (sample DT_BF16))) with 70]; lia.
Qed.
(** quantize, dequantize on other kernels and other threads; codes 5 of 1.25 come back as (5-2)/2 *)
Example C14_witness A A' nt nt' oaddr oaddr' : few nt -> few nt' ->
  exists p o, returns (sample DT_F32) (sample_out DT_UINT4) (quantize_call A nt oaddr DT_F32 DT_UINT4 f_half 2 RM_NEAREST thr4 (sample DT_F32) (sample_out DT_UINT4)) (Ok p) /\
    returns (p ++ [0]%Z) (sample DT_F32) (dequantize_call A' nt' oaddr' DT_UINT4 DT_F32 f_half 2 RO_SET 35 (sample DT_F32)) (Ok o) /\
    forall i, i < 70 -> f32_at o i = fmul (f32_of_Z (clamp 0 15 (skc i + 2) - 2)) f_half.
Proof.
  intros Hn Hn'. assert (Hd : float_type DT_F32) by (left; reflexivity). assert (Hq : quant_type DT_UINT4) by (right; left; reflexivity). destruct (sample_len _ Hd) as [_ HL].
  destruct (quant_sample A nt oaddr DT_F32 DT_UINT4 RM_NEAREST Hd Hq Hn) as (p & HR & Lp & Hb & _). change (bytes_for DT_UINT4 70) with 35 in Lp.
  destruct (returns_total (p ++ [0]%Z) (sample DT_F32) (dequantize_call A' nt' oaddr' DT_UINT4 DT_F32 f_half 2 RO_SET 35 (sample DT_F32))) as [r HR'].
  destruct (C14_codes_round_trip A A' nt nt' oaddr oaddr' DT_F32 DT_UINT4 f_half f_half 2 2 RM_NEAREST thr4 (sample DT_F32) (sample_out DT_UINT4) p [0%Z] (sample DT_F32) r)
    as (o & -> & _ & HO); auto using half_good, sample_buffers; try (apply st4); try lia; try discriminate.
  - rewrite HL. intros; apply sample_input; auto; lia.
  - rewrite HL. apply sample_sizes; auto.
  - repeat constructor; unfold is_byte; lia.
  - rewrite Lp. exact HR'.
  - exists p, o. split; auto. split; auto. rewrite HL in HO. intros i Hi. rewrite HO by auto. cbn [expected_code]. rewrite sample_code by auto. reflexivity.
Qed.
Example C28_witness A A1 A2 nt rm op oaddr p r1 r2 : few nt ->
  returns (sample DT_F32) (sample DT_F32) (fused_call A nt oaddr DT_F32 DT_UINT4 f_half 2 rm op thr4 (sample DT_F32) (sample DT_F32)) r1 ->
  returns (sample DT_F32) (sample_out DT_UINT4) (quantize_call A1 nt oaddr DT_F32 DT_UINT4 f_half 2 rm thr4 (sample DT_F32) (sample_out DT_UINT4)) (Ok p) ->
  returns (p ++ [0]%Z) (sample DT_F32) (dequantize_call A2 nt oaddr DT_UINT4 DT_F32 f_half 2 op (length p) (sample DT_F32)) r2 ->
  r1 = r2 /\ exists o, r1 = Ok o.
Proof.
  intros Hn H1 HQ H2. assert (Hd : float_type DT_F32) by (left; reflexivity). assert (Hq : quant_type DT_UINT4) by (right; left; reflexivity). destruct (sample_len _ Hd) as [_ HL].
  eapply (C28_fused_equals_two_calls_f32 A A1 A2 nt nt nt oaddr oaddr oaddr DT_UINT4 f_half 2 rm op thr4 (sample DT_F32) (sample_out DT_UINT4) p [0%Z] (sample DT_F32) r1 r2);
    eauto using half_good, sample_buffers; rewrite ?HL; try (apply sample_sizes; auto); try lia; try discriminate; try reflexivity.
  - intros; apply quarter_threshold.
  - intros i Hi. apply (sample_input A1 DT_F32 rm i 2); auto; lia.
  - repeat constructor; unfold is_byte; lia.
Qed.
Example C28_bf16_witness A A1 nt rm op oaddr p r1 r2 : few nt ->
  returns (sample DT_BF16) (sample DT_BF16) (fused_call A nt oaddr DT_BF16 DT_UINT2 f_half 2 rm op thr4 (sample DT_BF16) (sample DT_BF16)) r1 ->
  returns (sample DT_BF16) (sample_out DT_UINT2) (quantize_call A1 nt oaddr DT_BF16 DT_UINT2 f_half 2 rm thr4 (sample DT_BF16) (sample_out DT_UINT2)) (Ok p) ->
  returns (p ++ [0]%Z) (sample DT_BF16) (dequantize_call AVX2 nt oaddr DT_UINT2 DT_BF16 f_half 2 op (length p) (sample DT_BF16)) r2 ->
  exists o1 o2, r1 = Ok o1 /\ r2 = Ok o2 /\ forall i, i < 70 -> bf16_at o1 i = bf16_at o2 i.
Proof.
  intros Hn H1 HQ H2. assert (Hd : float_type DT_BF16) by (right; reflexivity). assert (Hq : quant_type DT_UINT2) by (left; reflexivity). destruct (sample_len _ Hd) as [_ HL].
  destruct (C28_fused_equals_two_calls_bf16 A A1 AVX2 nt nt nt oaddr oaddr oaddr DT_UINT2 f_half 2 rm op thr4 (sample DT_BF16) (sample_out DT_UINT2) p [0%Z] (sample DT_BF16) r1 r2)
    as (o1 & o2 & -> & -> & _ & E & _); auto using half_good, sample_buffers, sample_bytes; rewrite ?HL; try (apply sample_sizes; auto); try lia; try discriminate.
  - cbn; lia.
  - intros; apply quarter_threshold.
  - intros i Hi. apply (sample_input A1 DT_BF16 rm i 2); auto; lia.
  - repeat constructor; unfold is_byte; lia.
  - exists o1, o2. rewrite HL in E. auto.
Qed.
Lemma dequant_sample A nt oaddr d dq zp : float_type d -> quant_type dq -> few nt -> (Z.abs zp <= 2 ^ 22)%Z ->
  exists o, returns (packed dq) (sample d) (dequantize_call A nt oaddr dq d f_half zp RO_SET (bytes_for dq 70) (sample d)) (Ok o) /\ length o = length (sample d).
Proof.
  intros Hd Hq Hn Hz. destruct (returns_total (packed dq) (sample d) (dequantize_call A nt oaddr dq d f_half zp RO_SET (bytes_for dq 70) (sample d))) as [r HR].
  destruct Hd as [->| ->].
  - assert (Hd : float_type DT_F32) by (left; reflexivity). assert (Z30 : (Z.abs zp <= 2 ^ 30)%Z) by lia.
    destruct (C07_dequantize_set_f32 A nt oaddr dq f_half zp _ _ _ r (sample_dq nt dq _ Hd Hq Hn) Z30 HR) as (o & -> & L & _). eauto.
  - assert (Hd : float_type DT_BF16) by (right; reflexivity).
    destruct (C07_dequantize_set_bf16 A nt oaddr dq f_half zp _ _ _ r (sample_dq nt dq _ Hd Hq Hn) Hz (sample_bytes _) HR) as (o & -> & L & _). eauto.
Qed.
Example C15_witness A A' nt oaddr dq : quant_type dq -> few nt ->
  exists o p, returns (packed dq) (sample DT_F32) (dequantize_call A nt oaddr dq DT_F32 f_half 1 RO_SET (bytes_for dq 70) (sample DT_F32)) (Ok o) /\
    returns o (sample_out dq) (quantize_call A' nt oaddr DT_F32 dq f_half 1 RM_NEAREST thr4 o (sample_out dq)) (Ok p) /\
    forall i, i < 70 -> code_at dq p i = code_at dq (packed dq) i.
Proof.
  intros Hq Hn. assert (Hd : float_type DT_F32) by (left; reflexivity). destruct (sample_len _ Hd) as [_ HL].
  destruct (dequant_sample A nt oaddr DT_F32 dq 1 Hd Hq Hn ltac:(lia)) as (o & HR & Lo).
  destruct (returns_total o (sample_out dq) (quantize_call A' nt oaddr DT_F32 dq f_half 1 RM_NEAREST thr4 o (sample_out dq))) as [r HR'].
  destruct (C15_requantize_f32 A nt oaddr A' nt oaddr dq f_half 1 thr4 (packed dq) (bytes_for dq 70) (sample DT_F32) o (sample_out dq) r) as (p & -> & _ & HC);
    auto using sample_dq, half_normal, sample_bytes; rewrite ?HL; try lia; try apply sample_sizes; auto.
  - apply repeat_length.
  - exists o, p. rewrite HL in HC. auto.
Qed.
Example C15_bf16_witness A A' nt oaddr : few nt ->
  exists o p, returns (packed DT_UINT4) (sample DT_BF16) (dequantize_call A nt oaddr DT_UINT4 DT_BF16 f_half 3 RO_SET 35 (sample DT_BF16)) (Ok o) /\
    returns o (sample_out DT_UINT4) (quantize_call A' nt oaddr DT_BF16 DT_UINT4 f_half 3 RM_NEAREST thr4 o (sample_out DT_UINT4)) (Ok p) /\
    forall i, i < 70 -> code_at DT_UINT4 p i = code_at DT_UINT4 (packed DT_UINT4) i.
Proof.
  intros Hn. assert (Hd : float_type DT_BF16) by (right; reflexivity). assert (Hq : quant_type DT_UINT4) by (right; left; reflexivity). destruct (sample_len _ Hd) as [_ HL].
  destruct (dequant_sample A nt oaddr DT_BF16 DT_UINT4 3 Hd Hq Hn ltac:(lia)) as (o & HR & Lo).
  destruct (returns_total o (sample_out DT_UINT4) (quantize_call A' nt oaddr DT_BF16 DT_UINT4 f_half 3 RM_NEAREST thr4 o (sample_out DT_UINT4))) as [r HR'].
  destruct (C15_requantize_bf16 A nt oaddr A' nt oaddr DT_UINT4 f_half 3 thr4 (packed DT_UINT4) 35 (sample DT_BF16) o (sample_out DT_UINT4) r) as (p & -> & _ & HC);
    auto using half_bf16_scale, sample_bytes; rewrite ?HL; try lia; try apply sample_sizes; auto.
  - apply (sample_dq nt DT_UINT4 DT_BF16); auto.
  - cbn; lia.
  - intros i Hi. pose proof (code_at_le DT_UINT4 (packed DT_UINT4) i Hq) as B. change (code_max DT_UINT4) with 15%Z in B. lia.
  - exists o, p. rewrite HL in HC. auto.
Qed.
(** 0.75 is within the range of uint4 codes with zero point 2: it comes back within (1/2 + eps) * scale; 200 is clipped *)
Example C16_witness A A' nt oaddr p o : few nt ->
  returns (sample DT_F32) (sample_out DT_UINT4) (quantize_call A nt oaddr DT_F32 DT_UINT4 f_half 2 RM_NEAREST thr4 (sample DT_F32) (sample_out DT_UINT4)) (Ok p) ->
  returns (p ++ [0]%Z) (sample DT_F32) (dequantize_call A' nt oaddr DT_UINT4 DT_F32 f_half 2 RO_SET (length p) (sample DT_F32)) (Ok o) ->
  forall i, i < 70 -> i mod 5 = 4 -> (Rabs (val (f32_at o i) - 3 / 4) <= / 2 * (/ 2 + bpow radix2 (-13)))%R.
Proof.
  intros Hn HQ HD i Hi Hm. assert (Hd : float_type DT_F32) by (left; reflexivity). assert (Hq : quant_type DT_UINT4) by (right; left; reflexivity). destruct (sample_len _ Hd) as [_ HL].
  destruct half_ok as [_ Vh].
  destruct (C16_representable_range A nt oaddr A' nt oaddr DT_UINT4 f_half 2 thr4 (sample DT_F32) (sample_out DT_UINT4) p [0%Z] (sample DT_F32) (Ok o)) as (o' & E & HC);
    auto using sample_buffers, half_normal; rewrite ?HL; try (apply sample_sizes; auto); try (rewrite Vh; lra); try (cbn; lia); try discriminate.
  - intros j Hj. apply (sample_nearest A DT_F32); auto.
  - repeat constructor; unfold is_byte; lia.
  - injection E as <-. rewrite HL in HC. specialize (HC i Hi). cbv zeta in HC. destruct (sample_elem DT_F32 i Hd Hi) as [_ V]. cbn [elem_at] in V. unfold sval in V. rewrite Hm in V. cbn [nth] in V.
    rewrite V, Vh in HC. apply HC. change (code_max DT_UINT4 - 2)%Z with 13%Z. change (0 - 2)%Z with (-2)%Z. lra.
Qed.
Example C19_witness A A' nt rm r r' dout : quant_type dout -> few nt ->
  returns (sample DT_BF16) (sample_out dout) (quantize_call A nt 0 DT_BF16 dout f_half 2 rm thr4 (sample DT_BF16) (sample_out dout)) r ->
  returns (sample DT_F32) (sample_out dout) (quantize_call A' nt 0 DT_F32 dout f_half 2 rm thr4 (sample DT_F32) (sample_out dout)) r' ->
  r = r' /\ exists o, r = Ok o.
Proof.
  intros Hq Hn. assert (Hd : float_type DT_F32) by (left; reflexivity). assert (Hd' : float_type DT_BF16) by (right; reflexivity).
  apply (C19_bf16_input A A' nt nt 0 0 dout f_half 2 rm thr4 (sample DT_BF16) (sample DT_F32) (sample_out dout) 70); auto using sample_buffers, half_good.
  - intros i Hi. pose proof (sample_bits_at DT_F32 i Hd Hi) as E. pose proof (sample_bits_at DT_BF16 i Hd' Hi) as E'. cbn [elem_at] in E, E'. congruence.
  - apply st4.
  - intros _. apply nz2.
  - intros i Hi. apply (sample_input A DT_F32); auto; lia.
  - intros i Hi. apply (sample_input A' DT_F32); auto; lia.
Qed.
Example C10_witness A A' nt nt' oaddr r r' : few nt -> few nt' ->
  returns (sample DT_F32) (sample_out DT_UINT8) (quantize_call A nt oaddr DT_F32 DT_UINT8 f_half 2 RM_NEAREST thr4 (sample DT_F32) (sample_out DT_UINT8)) r ->
  returns (sample DT_F32) (sample_out DT_UINT8) (quantize_call A' nt' 17 DT_F32 DT_UINT8 f_half 2 RM_NEAREST f_zero (sample DT_F32) (sample_out DT_UINT8)) r' ->
  r = r' /\ exists o, r = Ok o.
Proof.
  intros Hn Hn'. assert (Hd : float_type DT_F32) by (left; reflexivity). assert (Hq : quant_type DT_UINT8) by (right; right; reflexivity). destruct (sample_len _ Hd) as [_ HL].
  apply C10_paths_agree; auto using sample_buffers, half_good, nz2. rewrite HL. intros i Hi. split; [apply sample_quantizable; auto|]. rewrite sample_scaled by auto. apply sample_abs.
Qed.
(** both paths occur: 64 of the 70 elements are handled by AVX2 vectors, the last six are not *)
Example C10_paths_witness : map (vector_path AVX2 DT_F32 DT_UINT8 0 70 1) [0; 63; 64; 69] = [true; true; false; false]
  /\ map (vector_path GENERIC DT_F32 DT_UINT8 0 70 1) [0; 69] = [false; false].
Proof. vm_compute. split; reflexivity. Qed.
Lemma sample_defined d dq i : float_type d -> quant_type dq -> i < 70 -> conversion_defined d dq f_half 2 (elem_at d (sample d) i).
Proof.
  intros Hd Hq Hi. unfold conversion_defined. rewrite sample_scaled, sample_round by auto. split; [apply sample_elem; auto|].
  assert (B : (-6 <= skc i <= 400)%Z) by (unfold skc; mod5 i; cbn; lia). assert (L : (2 ^ 31 <= conv_limit d dq)%Z) by (destruct d, dq; cbn; lia). lia.
Qed.
Example C11_witness A nt oaddr r : few nt ->
  returns (sample DT_F32) (sample_out DT_UINT8) (quantize_call A nt oaddr DT_F32 DT_UINT8 f_half 2 RM_NEAREST thr4 (sample DT_F32) (sample_out DT_UINT8)) r ->
  exists o, r = Ok o /\ (code_at DT_UINT8 o 2 <= code_at DT_UINT8 o 64 <= code_at DT_UINT8 o 1)%Z.
Proof.
  intros Hn HR. assert (Hd : float_type DT_F32) by (left; reflexivity). assert (Hq : quant_type DT_UINT8) by (right; right; reflexivity). destruct (sample_len _ Hd) as [_ HL].
  destruct half_ok as [_ Vh].
  destruct (C11_monotone A nt oaddr DT_F32 DT_UINT8 f_half 2 thr4 _ _ r (sample_buffers nt _ _ Hd Hq Hn) half_good) as (o & -> & HC); auto using nz2.
  - rewrite Vh. lra.
  - rewrite HL. intros. apply sample_defined; auto.
  - exists o. split; auto. rewrite HL in HC.
    assert (M : forall i, i < 70 -> moderate f_half (elem_at DT_F32 (sample DT_F32) i)).
    { intros i Hi. split; [apply sample_elem; auto|]. rewrite sample_scaled by auto. destruct (sample_abs i) as [B _].
      change (bpow radix2 31) with 2147483648%R. change (bpow radix2 22) with 4194304%R. lra. }
    assert (N : forall i, i < 70 -> Rabs (scaled (val f_half) (val (elem_at DT_F32 (sample DT_F32) i))) <> pred_half).
    { intros i Hi. rewrite sample_scaled by auto. apply sample_abs. }
    assert (V : forall i, i < 70 -> val (elem_at DT_F32 (sample DT_F32) i) = sval i) by (intros; apply sample_elem; auto).
    split; apply HC; try lia; try (apply M; lia); try (right; split; apply N; lia); rewrite !V by lia; unfold sval; cbn; lra.
Qed.
(** 64 floats: NaN, +infinity, -infinity, 3e38, ... all on the vector path *)
Definition odd_bits (i : nat) : Z := nth (i mod 4) [0x7fc00000; 0x7f800000; 0xff800000; 0x7f61b1e6]%Z 0%Z.
Definition odd_data : mem := concat (map (fun i => le_bytes 4 (odd_bits i)) (seq 0 64)).
Example C36_witness A r : x86_vector A ->
  returns odd_data (repeat 0%Z 64) (quantize_call A 1 0 DT_F32 DT_UINT8 f_half 2 RM_NEAREST thr4 odd_data (repeat 0%Z 64)) r ->
  exists o, r = Ok o /\ code_at DT_UINT8 o 0 = 0%Z /\ code_at DT_UINT8 o 1 = 0%Z.
Proof.
  intros HA HR. assert (Hd : float_type DT_F32) by (left; reflexivity). assert (Hq : quant_type DT_UINT8) by (right; right; reflexivity).
  assert (HL : numel DT_F32 (length odd_data) = 64) by (vm_compute; reflexivity).
  assert (HV : forall i, i < 64 -> vector_path A DT_F32 DT_UINT8 0 64 1 i = true).
  { intros i Hi. assert (H : forallb (fun i => vector_path A DT_F32 DT_UINT8 0 64 1 i) (seq 0 64) = true) by (destruct HA as [->|[->|[->| ->]]]; vm_compute; reflexivity).
    rewrite forallb_forall in H. apply H, in_seq. lia. }
  destruct (C36_x86_vector A 1 0 DT_F32 DT_UINT8 f_half 2 thr4 odd_data (repeat 0%Z 64) r HA) as (o & -> & HC); auto using half_good, nz2.
  - split; auto. split; auto. split; [|split; [vm_compute; reflexivity|]].
    + apply Forall_forall. intros x Hx. assert (H : forallb (fun x => (0 <=? x)%Z && (x <? 256)%Z) odd_data = true) by (vm_compute; reflexivity).
      rewrite forallb_forall in H. specialize (H x Hx). unfold is_byte. lia.
    + rewrite HL. change (length odd_data) with 256. unfold sizes_ok. lia.
  - rewrite HL. intros i Hi Hv. rewrite HV in Hv by auto. discriminate.
  - exists o. split; auto. rewrite HL in HC.
    assert (X : forall i, i < 2 -> ~ finite (elem_at DT_F32 odd_data i)).
    { intros i Hi. assert (i = 0 \/ i = 1) as [->| ->] by lia; unfold finite; vm_compute; discriminate. }
    split; [destruct (HC 0 ltac:(lia) (HV 0 ltac:(lia))) as (K & _)|destruct (HC 1 ltac:(lia) (HV 1 ltac:(lia))) as (K & _)]; rewrite K; try reflexivity; left; apply X; lia.
Qed.
(** with the generic kernels the same call is undefined *)
Example C36_ub_witness r :
  returns odd_data (repeat 0%Z 64) (quantize_call GENERIC 1 0 DT_F32 DT_UINT8 f_half 2 RM_NEAREST thr4 odd_data (repeat 0%Z 64)) r -> r = UB.
Proof.
  intros HR. assert (Hd : float_type DT_F32) by (left; reflexivity). assert (Hq : quant_type DT_UINT8) by (right; right; reflexivity).
  assert (HL : numel DT_F32 (length odd_data) = 64) by (vm_compute; reflexivity).
  destruct (C36_every_input GENERIC 1 0 DT_F32 DT_UINT8 f_half 2 thr4 odd_data (repeat 0%Z 64) r) as [U _]; auto using half_good, nz2.
  - split; auto. split; auto. split; [|split; [vm_compute; reflexivity|]].
    + apply Forall_forall. intros x Hx. assert (H : forallb (fun x => (0 <=? x)%Z && (x <? 256)%Z) odd_data = true) by (vm_compute; reflexivity).
      rewrite forallb_forall in H. specialize (H x Hx). unfold is_byte. lia.
    + rewrite HL. change (length odd_data) with 256. unfold sizes_ok. lia.
  - apply U. exists 0. rewrite HL. split; [lia|]. split; [vm_compute; reflexivity|]. intros (F & _). revert F. unfold finite. vm_compute. discriminate.
Qed.

(** ** stochastic rounding: threshold 1/4; 2 * 1.25 = 2.5 rounds away, to code 3 + 2 *)
Example C29_witness A nt oaddr : few nt ->
  exists o, returns (sample DT_F32) (sample_out DT_UINT8) (quantize_call A nt oaddr DT_F32 DT_UINT8 f_half 2 RM_STOCHASTIC thr4 (sample DT_F32) (sample_out DT_UINT8)) (Ok o) /\
    code_at DT_UINT8 o 1 = 5%Z /\ code_at DT_UINT8 o 66 = 5%Z.
Proof.
  intros Hn. assert (Hd : float_type DT_F32) by (left; reflexivity). assert (Hq : quant_type DT_UINT8) by (right; right; reflexivity). destruct (sample_len _ Hd) as [_ HL].
  destruct (returns_total (sample DT_F32) (sample_out DT_UINT8) (quantize_call A nt oaddr DT_F32 DT_UINT8 f_half 2 RM_STOCHASTIC thr4 (sample DT_F32) (sample_out DT_UINT8))) as [r HR].
  destruct (C29_quantize_stochastic A nt oaddr DT_F32 DT_UINT8 f_half 2 thr4 _ _ r (sample_buffers nt _ _ Hd Hq Hn) half_good) as (o & -> & _ & HC); auto using quarter_threshold; try lia.
  { rewrite HL. intros. apply sample_quantizable; auto. }
  exists o. split; auto. rewrite HL in HC.
  assert (K : forall i, i < 70 -> i mod 5 = 1 -> code_at DT_UINT8 o i = 5%Z).
  { intros i Hi Hm. rewrite HC by auto. unfold stoch_code. rewrite sample_scaled by auto. unfold sval. rewrite Hm. cbn [nth]. unfold stoch_round. cbv zeta.
    rewrite Rabs_pos_eq by lra. rewrite (Zfloor_imp 2) by (cbn; lra). rewrite Rlt_bool_false by lra. rewrite Rlt_bool_true; [reflexivity|].
    unfold val; cbn; unfold F2R; cbn; lra. }
  split; apply K; reflexivity || lia.
Qed.
Example C31_witness A nt oaddr r : few nt ->
  returns (sample DT_F32) (sample_out DT_UINT4) (quantize_call A nt oaddr DT_F32 DT_UINT4 f_half 2 RM_STOCHASTIC thr4 (sample DT_F32) (sample_out DT_UINT4)) r ->
  exists o, r = Ok o /\ code_at DT_UINT4 o 1 = code_at DT_UINT4 o 66.
Proof.
  intros Hn HR. assert (Hd : float_type DT_F32) by (left; reflexivity). assert (Hq : quant_type DT_UINT4) by (right; left; reflexivity). destruct (sample_len _ Hd) as [_ HL].
  destruct (C31_equal_inputs_equal_codes A nt oaddr DT_F32 DT_UINT4 f_half 2 thr4 _ _ r (sample_buffers nt _ _ Hd Hq Hn) half_good) as (o & -> & HC); auto using quarter_threshold; try lia.
  { rewrite HL. intros. apply sample_quantizable; auto. }
  exists o. split; auto. rewrite HL in HC. apply HC; try lia. rewrite !sample_bits_at by (auto; lia). reflexivity.
Qed.
(** a run of a call, one job after the other *)
Definition run_seq (inm outm : mem) (c : res (list (list action))) : res mem :=
  match c with Ok jobs => run_trace inm (concat jobs) outm | Abort => Abort | UB => UB end.
Lemma interleave_concat {X} (ls : list (list X)) : interleave ls (concat ls).
Proof.
  induction ls as [|l ls IH]; [constructor; constructor|].
  induction l as [|a l IHl]; simpl.
  - clear -IH. revert IH. generalize (concat ls). intros tr H. remember ls as L. clear HeqL ls. induction H.
    + constructor. constructor; auto.
    + apply (il_step ([] :: pre)). auto.
  - apply (il_step [] a l ls). apply IHl.
Qed.
Lemma run_seq_returns inm outm c : returns inm outm c (run_seq inm outm c).
Proof. destruct c; constructor. apply interleave_concat. Qed.
Lemma thr_exists k : (0 <= k < 2 ^ 24)%Z -> finite (fdiv (f32_of_Z k) (f32_of_Z (2 ^ 24))) /\ val (fdiv (f32_of_Z k) (f32_of_Z (2 ^ 24))) = (IZR k / IZR (2 ^ 24))%R.
Proof.
  intros Hk. destruct (f32_of_Z_exact k ltac:(lia)) as [F V]. destruct (f32_of_Z_exact (2 ^ 24) ltac:(lia)) as [F2 V2].
  assert (FM : fmt32 (IZR k / IZR (2 ^ 24))).
  { replace (IZR k / IZR (2 ^ 24))%R with (F2R (Float radix2 k (-24))); [|unfold F2R; cbn; lra].
    apply generic_format_FLT. exists (Float radix2 k (-24)); auto; cbn [Fnum Fexp]; [change (radix2 ^ 24)%Z with (2 ^ 24)%Z|]; lia. }
  assert (B : (0 <= IZR k / IZR (2 ^ 24) < 1)%R).
  { assert (0 <= IZR k)%R by (apply IZR_le; lia). assert (IZR k < 16777216)%R by (apply IZR_lt; lia). change (IZR (2 ^ 24)) with 16777216%R. lra. }
  destruct (fdiv_ok (f32_of_Z k) (f32_of_Z (2 ^ 24)) F) as [F3 V3].
  - rewrite V2. apply not_eq_sym, Rlt_not_eq. apply (IZR_lt 0). lia.
  - rewrite V, V2, RN32_fmt by auto. rewrite Rabs_pos_eq by lra. apply Rlt_trans with 1%R; [lra|]. unfold max32. change 1%R with (bpow radix2 0). apply bpow_lt. lia.
  - split; auto. rewrite V3, V, V2. apply RN32_fmt; auto.
Qed.
(** all 2^24 thresholds: the codes of 1.25 (scaled 2.5) average to exactly 2.5 *)
Example C30_witness A nt oaddr : few nt ->
  let thr k := fdiv (f32_of_Z (Z.of_nat k)) (f32_of_Z (2 ^ 24)) in
  exists o : nat -> mem,
    (forall k, k < Z.to_nat (2 ^ 24) -> returns (sample DT_F32) (sample_out DT_UINT4) (quantize_call A nt oaddr DT_F32 DT_UINT4 f_half 2 RM_STOCHASTIC (thr k) (sample DT_F32) (sample_out DT_UINT4)) (Ok (o k))) /\
    (IZR (sum_upto (Z.to_nat (2 ^ 24)) (fun k => code_at DT_UINT4 (o k) 1 - 2)%Z) / IZR (2 ^ 24))%R = (5 / 2)%R.
Proof.
  intros Hn thr. assert (Hd : float_type DT_F32) by (left; reflexivity). assert (Hq : quant_type DT_UINT4) by (right; left; reflexivity). destruct (sample_len _ Hd) as [_ HL].
  set (o := fun k => match run_seq (sample DT_F32) (sample_out DT_UINT4) (quantize_call A nt oaddr DT_F32 DT_UINT4 f_half 2 RM_STOCHASTIC (thr k) (sample DT_F32) (sample_out DT_UINT4)) with Ok m => m | _ => [] end).
  assert (T : forall k, k < Z.to_nat (2 ^ 24) -> finite (thr k) /\ val (thr k) = (IZR (Z.of_nat k) / IZR (2 ^ 24))%R) by (intros; apply thr_exists; lia).
  assert (HR : forall k, k < Z.to_nat (2 ^ 24) -> returns (sample DT_F32) (sample_out DT_UINT4) (quantize_call A nt oaddr DT_F32 DT_UINT4 f_half 2 RM_STOCHASTIC (thr k) (sample DT_F32) (sample_out DT_UINT4)) (Ok (o k))).
  { intros k Hk. destruct (T k Hk) as [F V].
    assert (TH : threshold (thr k)).
    { split; auto. rewrite V. assert (0 <= IZR (Z.of_nat k))%R by (apply IZR_le; lia). assert (IZR (Z.of_nat k) < 16777216)%R by (apply IZR_lt; lia). change (IZR (2 ^ 24)) with 16777216%R. lra. }
    pose proof (run_seq_returns (sample DT_F32) (sample_out DT_UINT4) (quantize_call A nt oaddr DT_F32 DT_UINT4 f_half 2 RM_STOCHASTIC (thr k) (sample DT_F32) (sample_out DT_UINT4))) as R.
    assert (HX : forall i, i < numel DT_F32 (length (sample DT_F32)) -> quantizable f_half (elem_at DT_F32 (sample DT_F32) i)) by (rewrite HL; intros; apply sample_quantizable; auto).
    assert (Z62 : (Z.abs 2 <= 2 ^ 62)%Z) by lia.
    destruct (C29_quantize_stochastic A nt oaddr DT_F32 DT_UINT4 f_half 2 (thr k) _ _ _ (sample_buffers nt _ _ Hd Hq Hn) half_good Z62 TH HX R) as (m & E & _).
    unfold o. rewrite E in R |- *. exact R. }
  exists o. split; auto.
  assert (S1 : scaled (val f_half) (val (elem_at DT_F32 (sample DT_F32) 1)) = (5 / 2)%R) by (rewrite sample_scaled by (auto; lia); unfold sval; cbn; lra).
  rewrite <- S1.
  apply (C30_unbiased (fun _ => A) (fun _ => nt) (fun _ => oaddr) DT_F32 DT_UINT4 f_half 2 thr (sample DT_F32) (fun _ => sample_out DT_UINT4) o half_good ltac:(lia)).
  - rewrite HL. intros. apply sample_quantizable; auto.
  - intros k Hk. split; [apply sample_buffers; auto|]. destruct (T k Hk). auto.
  - rewrite HL. lia.
  - rewrite S1. exists 41943040%Z. change (IZR (2 ^ 24)) with 16777216%R. lra.
  - rewrite S1, (Zfloor_imp 2) by (cbn; lra). rewrite (Zceil_imp 3) by (cbn; lra). cbn. lia.
Qed.
Example C34_witness A nt oaddr r : few nt ->
  returns (sample DT_F32) (sample_out DT_UINT8) (quantize_call A nt oaddr DT_F32 DT_UINT8 f_half (2 + 2 ^ 32) RM_NEAREST thr4 (sample DT_F32) (sample_out DT_UINT8)) r ->
  exists o, r = Ok o /\ forall i, i < 70 -> code_at DT_UINT8 o i = clamp 0 255 (skc i + 2).
Proof.
  intros Hn HR. assert (Hd : float_type DT_F32) by (left; reflexivity). assert (Hq : quant_type DT_UINT8) by (right; right; reflexivity). destruct (sample_len _ Hd) as [_ HL].
  destruct (C34_quantize_low_32_bits_codes A nt oaddr DT_F32 DT_UINT8 f_half (2 + 2 ^ 32) 2 thr4 _ _ r (sample_buffers nt _ _ Hd Hq Hn)) as (o & -> & HC); auto using half_good, nz2.
  - intros (_ & X); discriminate.
  - split; [lia|]. exists 1%Z. lia.
  - rewrite HL. intros; apply sample_nearest; auto.
  - exists o. split; auto. rewrite HL in HC. intros i Hi. rewrite HC by auto. apply sample_code; auto.
Qed.
Example C35_witness A oaddr scale zp rm thr r :
  returns (sample DT_F32) (sample_out DT_UINT8) (quantize A 0 oaddr 280 DT_F32 70 DT_UINT8 scale zp rm thr) r -> r = Ok (sample_out DT_UINT8).
Proof. apply C35_zero_threads_quantize; vm_compute; destruct rm; discriminate. Qed.

(** ** quantization parameters: the sample ranges over [-3, 200] *)
Lemma sample_finite d : float_type d -> finite_data d (sample d) 70.
Proof.
  intros Hd. split; [apply sample_bytes|]. split; [apply sample_len; auto|]. intros. apply sample_elem; auto.
Qed.
Lemma sample_range d : float_type d -> data_range d (sample d) 70 (-3) 200.
Proof.
  intros Hd. assert (V : forall i, i < 70 -> val (elem_at d (sample d) i) = sval i) by (intros; apply sample_elem; auto).
  split; [exists 2; split; [lia|rewrite V by lia; reflexivity]|]. split; [exists 3; split; [lia|rewrite V by lia; reflexivity]|].
  intros i Hi. rewrite V by auto. unfold sval. mod5 i; cbn; lra.
Qed.
Definition cut3 : list (nat * nat) := [(0, 24); (24, 47); (47, 70)].
Lemma cut3_ok : block_cover 70 cut3.
Proof.
  split.
  - intros b [<-|[<-|[<-|[]]]]; cbn; lia.
  - intros t Ht. destruct (Nat.lt_ge_cases t 24); [exists (0, 24); cbn; split; [auto|lia]|]. destruct (Nat.lt_ge_cases t 47); [exists (24, 47)|exists (47, 70)]; cbn; (split; [auto|lia]).
Qed.
Lemma whole_ok : block_cover 70 [(0, 70)].
Proof. split; [intros b [<-|[]]; cbn; lia|]. intros t Ht. exists (0, 70). cbn. split; [auto|lia]. Qed.
Example C21_witness a d dq : a <> SSE42 -> float_type d -> quant_type dq ->
  exists s, compute_quant_config_from_data a d dq (sample d) cut3 = Ok (s, config_zp dq (-3) 200) /\ finite s /\ val s = config_scale dq (-3) 200 /\
    compute_quant_config_from_data GENERIC d dq (sample d) [(0, 70)] = Ok (s, config_zp dq (-3) 200).
Proof.
  intros Ha Hd Hq. destruct (C21_documented_parameters a d dq (sample d) 70 cut3 (-3) 200 Ha Hd Hq (sample_finite d Hd) cut3_ok (sample_range d Hd) ltac:(lra)) as (s & E & F & V).
  exists s. split; auto. split; auto. split; auto. rewrite <- E. symmetry.
  apply (C22_block_independent a GENERIC d dq (sample d) 70); auto using sample_finite, cut3_ok, whole_ok; try discriminate. lia.
Qed.
Example C20_witness a d : a <> SSE42 -> float_type d -> exists mn mx, find_min_max a d (sample d) 70 = Ok (mn, mx) /\ val mn = (-3)%R /\ val mx = 200%R.
Proof.
  intros Ha Hd. destruct (C20_min_max a d (sample d) 70 Ha Hd (sample_finite d Hd) ltac:(lia)) as (mn & mx & E & _ & _ & R). exists mn, mx. split; auto.
  destruct (sample_range d Hd) as ((i & Hi & Vi) & (j & Hj & Vj) & B). destruct R as ((i' & Hi' & Vi') & (j' & Hj' & Vj') & B').
  pose proof (B i' Hi'). pose proof (B j' Hj'). pose proof (B' i Hi). pose proof (B' j Hj). lra.
Qed.
Example C24_witness a dq : quant_type dq -> compute_quant_config_from_data a DT_F32 dq (concat (repeat [0; 0; 160; 63]%Z 70)) cut3 = Ok (f_one, mid_code dq).
Proof.
  intros Hq. assert (Hd : float_type DT_F32) by (left; reflexivity). set (m := concat _).
  assert (E : forall i, i < 70 -> elem_at DT_F32 m i = f32_of_bits 0x3fa00000).
  { intros i Hi. unfold elem_at, f32_at. f_equal.
    assert (H : forallb (fun i => (le_val (slice (4 * i) 4 m) =? 0x3fa00000)%Z) (seq 0 70) = true) by (vm_compute; reflexivity).
    rewrite forallb_forall in H. apply Z.eqb_eq, H, in_seq. lia. }
  apply (C24_constant a DT_F32 dq m 70 cut3 (5 / 4)); auto using cut3_ok; try lia.
  - split; [|split; [vm_compute; reflexivity|]].
    + apply Forall_forall. intros x Hx. assert (H : forallb (fun x => (0 <=? x)%Z && (x <? 256)%Z) m = true) by (vm_compute; reflexivity).
      rewrite forallb_forall in H. specialize (H x Hx). unfold is_byte. lia.
    + intros i Hi. rewrite E by auto. reflexivity.
  - intros i Hi. rewrite E by auto. unfold val; cbn; unfold F2R; cbn; lra.
Qed.
(** parameters computed from the sample (range [-3, 200] contains 0), then quantize and dequantize *)
Example C23_witness A A2 nt dq scale zp p o : quant_type dq -> few nt ->
  compute_quant_config_from_data AVX2 DT_F32 dq (sample DT_F32) cut3 = Ok (scale, zp) ->
  returns (sample DT_F32) (sample_out dq) (quantize_call A nt 0 DT_F32 dq scale zp RM_NEAREST thr4 (sample DT_F32) (sample_out dq)) (Ok p) ->
  returns (p ++ [0]%Z) (sample DT_F32) (dequantize_call A2 nt 0 dq DT_F32 scale zp RO_SET (length p) (sample DT_F32)) (Ok o) ->
  forall i, i < 70 -> (Rabs (val (f32_at o i) - val (f32_at (sample DT_F32) i)) <= val scale * (/ 2 + bpow radix2 (-12)))%R.
Proof.
  intros Hq Hn HC HQ HD. assert (Hd : float_type DT_F32) by (left; reflexivity). destruct (sample_len _ Hd) as [_ HL].
  assert (HA : AVX2 <> SSE42) by discriminate. assert (HN : [0%Z] <> []) by discriminate.
  assert (H0 : (-3 <= 0 <= 200)%R) by lra.
  assert (HB : (bpow radix2 (-118) <= 200 - -3 <= bpow radix2 100)%R).
  { split.
    - apply Rle_trans with (bpow radix2 0); [apply bpow_le; lia|cbn; lra].
    - apply Rle_trans with (bpow radix2 10); [change (bpow radix2 10) with 1024%R; lra|apply bpow_le; lia]. }
  assert (Hx : Forall is_byte [0%Z]) by (repeat constructor; unfold is_byte; lia).
  pose proof (sample_finite _ Hd) as HF. pose proof (sample_range _ Hd) as HRg. pose proof (sample_sizes _ nt Hd Hn) as HS. pose proof cut3_ok as HK.
  rewrite <- HL in HF, HRg, HS, HK.
  destruct (C23_data_is_represented AVX2 cut3 A nt 0 A2 nt 0 dq scale zp thr4 (sample DT_F32) (sample_out dq) p [0%Z] (sample DT_F32) (Ok o) (-3) 200
    HA HF HK HRg H0 HB HC (sample_buffers nt _ _ Hd Hq Hn) eq_refl HS Hx HN HQ HD) as (o' & E & _ & B).
  injection E as <-. rewrite HL in B. exact B.
Qed.

(** ** C API *)
Example C27_witness A nt oaddr din dout r : float_type din -> quant_type dout -> few nt ->
  returns (sample din) (sample_out dout) (c_quantize A nt oaddr (PIQUANT_DTYPE din) (PIQUANT_DTYPE dout) 70 f_half 2 (PIQUANT_MODE RM_NEAREST) thr4) r ->
  exists o, r = Ok o /\ forall i, i < 70 -> code_at dout o i = clamp 0 (code_max dout) (skc i + 2).
Proof.
  intros Hd Hq Hn HR. destruct (sample_len _ Hd) as [L HL].
  destruct (C27_quantize_codes A nt oaddr din dout 70 f_half 2 thr4 (sample din) (sample_out dout) r) as (o & -> & _ & HC); auto using sample_bytes, half_good, nz2, sample_sizes, sample_nearest.
  - rewrite L. lia.
  - apply repeat_length.
  - exists o. split; auto. intros i Hi. rewrite HC by auto. apply sample_code; auto.
Qed.
Example C26_witness A scale thr : 
  c_quantize A 1 0 (PIQUANT_DTYPE DT_F32) (PIQUANT_DTYPE DT_BF16) 70 scale 2 (PIQUANT_MODE RM_NEAREST) thr = UB /\
  c_quantize A 1 0 7 (PIQUANT_DTYPE DT_UINT8) 70 scale 2 (PIQUANT_MODE RM_NEAREST) thr = UB /\
  c_quantize A 1 0 (PIQUANT_DTYPE DT_F32) (PIQUANT_DTYPE DT_UINT8) (2 ^ 62) scale 2 (PIQUANT_MODE RM_NEAREST) thr = Abort.
Proof.
  split; [|split].
  - apply C26_quantize_float_output_refuted; [unfold valid_dtype; cbn; lia|right; reflexivity].
  - apply (C26_bad_dtype_refuted A 1 0 7 (PIQUANT_DTYPE DT_UINT8) 70 scale 2 (PIQUANT_MODE RM_NEAREST) 0 thr). unfold valid_dtype. lia.
  - apply C26_quantize_wrap_aborts; [left; reflexivity|right; right; reflexivity|lia|cbn; lia].
Qed.
(** ** bf16 conversions *)
Example C17_witness : (* 1 + 2^-8 is halfway: to even; 1 + 2^-8 + 2^-23 rounds up; the largest float overflows; a NaN stays quiet *)
  map bf16_of_f32_bits [0x3f808000; 0x3f808001; 0x7f7fffff; 0x7f800001]%Z = [0x3f80; 0x3f81; 0x7f80; 0x7fc0]%Z.
Proof. vm_compute. reflexivity. Qed.
Example C18_witness : (* a subnormal: the instruction flushes it to zero, the emulation does not; a NaN with a full payload *)
  map cvt_ps_to_bf16_sw_bits [0x3f808001; 0x00012345; 0x7fffffff]%Z = [0x3f81; 0x0001; 0x8001]%Z /\
  map cvtneps_pbh_bits [0x3f808001; 0x00012345; 0x7fffffff]%Z = [0x3f81; 0x0000; 0x7fff]%Z.
Proof. vm_compute. split; reflexivity. Qed.
