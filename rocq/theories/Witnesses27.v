(** Witnesses27.v -- concrete cases of C66 (PropsReplicas.v). *)
From Coq Require Import ZArith List Lia Bool Reals Lra.
From Flocq Require Import Core BinarySingleNaN Binary Bits.
From Verif Require Import Base Floats Dtypes Spec ApiSpec FloatFacts FloatFacts2 Context Api PropsQuantize PropsDequantize PropsRoundTrip PropsIdempotent MinMax ConfigSpec F64Facts ConfigFacts PropsConfig
  PropsConfigRefuted PropsRepresent PropsBf16Zero PropsSpike PropsReplicas.
Import ListNotations.
Open Scope nat_scope.

(** {0, 1, 2, 3} as f32 and as bf16. *)
Definition four (d : dtype) : mem := match d with DT_BF16 => [0; 0; 128; 63; 0; 64; 64; 64]%Z | _ => f32_buf [0; 0x3f800000; 0x40000000; 0x40400000]%Z end.
Lemma four_elem d i : float_type d -> i < 4 -> finite (elem_at d (four d) i) /\ val (elem_at d (four d) i) = IZR (Z.of_nat i).
Proof.
  intros Hd Hi. destruct Hd as [-> | ->]; do 4 (destruct i as [|i]; [split; [vm_compute; reflexivity|];
    match goal with |- val ?x = _ => let b := eval vm_compute in (bits_of_f32 x) in
      replace x with (f32_of_bits b) by (rewrite <- (f32_bits_bits x); apply (f_equal f32_of_bits); vm_compute; reflexivity) end;
    unfold val; cbn; unfold F2R; cbn; lra|]); lia.
Qed.
Lemma four_bytes d : float_type d -> Forall is_byte (four d).
Proof.
  intros [-> | ->]; apply Forall_forall; intros b Hb.
  - assert (T : forallb (fun b => (0 <=? b)%Z && (b <? 256)%Z) (four DT_F32) = true) by (vm_compute; reflexivity). rewrite forallb_forall in T. specialize (T b Hb). unfold is_byte. lia.
  - assert (T : forallb (fun b => (0 <=? b)%Z && (b <? 256)%Z) (four DT_BF16) = true) by (vm_compute; reflexivity). rewrite forallb_forall in T. specialize (T b Hb). unfold is_byte. lia.
Qed.
Lemma four_n d : float_type d -> numel d (length (four d)) = 4.
Proof. intros [-> | ->]; reflexivity. Qed.
Lemma four_scale : config_scale DT_UINT2 0 3 = 1%R.
Proof.
  unfold config_scale, config_step. change (code_max DT_UINT2) with 3%Z. replace (3 - 0)%R with (IZR 3) by (cbn; lra).
  rewrite (RN64_fmt (IZR 3)) by (apply fmt32_64, fmt32_int; lia). replace (IZR 3 / IZR 3)%R with (IZR 1) by (cbn; field).
  rewrite (RN64_fmt (IZR 1)) by (apply fmt32_64, fmt32_int; lia). apply RN32_int. lia.
Qed.
(** Two stories, allowed on every tensor type: requantize {0, 1, 2, 3} with uint2, then overwrite it with the message {1, 0, 2, 3} * 0.1 of uint4 codes;
    and add the message to {0, 1, 2, 3}, then overwrite. *)
Definition message (op : reduce_op) : event := Receive DT_UINT4 tenth 0 op [0x01; 0x32]%Z.
Definition story (e : event) : list event := [e; message RO_SET].
Definition opening (e : event) : Prop := e = Requantize DT_UINT2 \/ e = message RO_ADD.
Lemma opening_allowed d e : float_type d -> opening e -> allowed d e (four d).
Proof.
  intros Hd [-> | ->].
  - cbn [allowed]. rewrite (four_n d Hd). split; [left; reflexivity|]. split.
    + split; [apply four_bytes; auto|]. split; [destruct Hd as [-> | ->]; reflexivity|]. intros i Hi. apply four_elem; auto.
    + exists 0%R, 3%R. split; [|split; [lra|split]].
      * split; [exists 0; split; [lia|apply (four_elem d 0 Hd); lia]|]. split; [exists 3; split; [lia|apply (four_elem d 3 Hd); lia]|].
        intros i Hi. rewrite (proj2 (four_elem d i Hd Hi)). split; apply IZR_le; lia.
      * split; [apply Rle_trans with (bpow radix2 0); [apply bpow_le; lia|cbn; lra]|apply Rle_trans with (bpow radix2 2); [cbn; lra|apply bpow_le; lia]].
      * intros i Hi. rewrite four_scale, (proj2 (four_elem d i Hd Hi)), scaled_one by (apply fmt32_int; lia). rewrite Rabs_pos_eq by (apply IZR_le; lia).
        unfold pred_half. change (bpow radix2 (-25)) with (/ 33554432)%R. intros C.
        assert (C0 : (0 < IZR (Z.of_nat i) < 1)%R) by (rewrite C; lra). destruct C0 as [C1 C2]. apply lt_IZR in C1, C2. lia.
  - unfold message. cbn [allowed]. rewrite (four_n d Hd). split; [right; left; reflexivity|].
    split; [repeat constructor; unfold is_byte; lia|]. split; [reflexivity|]. split; [destruct Hd as [-> | ->]; lia|]. split; [reflexivity|].
    intros _ i Hi. apply four_elem; auto.
Qed.
Lemma story_allowed M d e : float_type d -> uniform d M -> opening e -> all_allowed M d (story e) (four d).
Proof.
  intros Hd HU He. pose proof (opening_allowed d e Hd He) as A1.
  split; [exact A1|]. intros s' Hs'. destruct (C66_one_event M d _ _ _ _ Hd HU (four_bytes d Hd) A1 Hs' Hs') as (_ & o & Eo & Lo & Bo). injection Eo as ->.
  split; [|intros; exact I]. unfold message. cbn [allowed]. rewrite Lo, (four_n d Hd). split; [right; left; reflexivity|].
  split; [repeat constructor; unfold is_byte; lia|]. split; [reflexivity|]. split; [destruct Hd as [-> | ->]; lia|]. split; [reflexivity|discriminate].
Qed.
(** Two peers on any of the machines end with the same bytes; and such peers exist. *)
Example C66_witness M d A nt e : float_type d -> uniform d M -> opening e -> M A nt -> A <> SSE42 -> 1 <= nt < 1000 ->
  exists o, run M d (story e) (four d) (Ok o) /\ length o = length (four d) /\ forall r, run M d (story e) (four d) r -> r = Ok o.
Proof.
  intros Hd HU He HA HN Hnt. destruct (C66_runs_exist M d A nt (story e) (four d) Hd) as (o & R & L); auto.
  - rewrite (four_n d Hd). destruct Hd as [-> | ->]; [change (length (four DT_F32)) with 16|change (length (four DT_BF16)) with 8]; unfold sizes_ok; lia.
  - apply four_bytes; auto.
  - apply story_allowed; auto.
  - exists o. split; auto. split; auto. intros r Hr.
    exact (proj1 (C66_replicas_agree M d (story e) (four d) (Ok o) r Hd HU (four_bytes d Hd) (story_allowed M d e Hd HU He) R Hr)).
Qed.
(** all machines for f32; machines without AVX-512, or identical AVX-512 machines, for bf16; not AVX2 and AVX-512 machines together *)
Example C66_machines : uniform DT_F32 (fun _ _ => True) /\ uniform DT_BF16 (fun A _ => A = GENERIC \/ A = AVX2 \/ A = NEON \/ A = SSE42) /\
  uniform DT_BF16 (fun A nt => A = AVX512BF16 /\ nt = 16) /\ ~ uniform DT_BF16 (fun A nt => (A = AVX512F \/ A = AVX2) /\ nt = 16).
Proof.
  split; [left; reflexivity|]. split; [right; left; intros A nt [->|[->|[->| ->]]]; reflexivity|].
  split; [right; right; intros A nt A' nt' [-> ->] [-> ->]; auto|]. intros [H|[H|H]]; [discriminate| |].
  - specialize (H AVX512F 16 ltac:(auto)). discriminate.
  - destruct (H AVX512F 16 AVX2 16 ltac:(auto) ltac:(auto)) as [E _]. discriminate.
Qed.
(** the refutation applies: both calls return something *)
Example C66_refuted_witness : exists o o', 
  returns threes (repeat 0%Z 256) (dequantize_call AVX512F 1 0 DT_UINT4 DT_BF16 tenth 3 RO_SET 64 (repeat 0%Z 256)) (Ok o) /\
  returns threes (repeat 0%Z 256) (dequantize_call AVX2 1 0 DT_UINT4 DT_BF16 tenth 3 RO_SET 64 (repeat 0%Z 256)) (Ok o') /\ o <> o'.
Proof.
  destruct (returns_total threes (repeat 0%Z 256) (dequantize_call AVX512F 1 0 DT_UINT4 DT_BF16 tenth 3 RO_SET 64 (repeat 0%Z 256))) as [r Hr].
  destruct (returns_total threes (repeat 0%Z 256) (dequantize_call AVX2 1 0 DT_UINT4 DT_BF16 tenth 3 RO_SET 64 (repeat 0%Z 256))) as [r' Hr'].
  destruct (C66_bf16_avx512_refuted AVX512F AVX2 0 0 (repeat 0%Z 256) r r') as (o & o' & -> & -> & H); auto; try reflexivity; try (apply repeat_bytes; unfold is_byte; lia).
  exists o, o'. split; auto. split; auto. intros <-. destruct (H 0%nat ltac:(lia)) as [H1 H2]. rewrite H1 in H2. discriminate.
Qed.
Example C66_threads_witness : exists o o', 
  returns threes (repeat 0%Z 256) (dequantize_call AVX512F 1 0 DT_UINT4 DT_BF16 tenth 3 RO_SET 64 (repeat 0%Z 256)) (Ok o) /\
  returns threes (repeat 0%Z 256) (dequantize_call AVX512F 2 0 DT_UINT4 DT_BF16 tenth 3 RO_SET 64 (repeat 0%Z 256)) (Ok o') /\ o <> o'.
Proof.
  destruct (returns_total threes (repeat 0%Z 256) (dequantize_call AVX512F 1 0 DT_UINT4 DT_BF16 tenth 3 RO_SET 64 (repeat 0%Z 256))) as [r Hr].
  destruct (returns_total threes (repeat 0%Z 256) (dequantize_call AVX512F 2 0 DT_UINT4 DT_BF16 tenth 3 RO_SET 64 (repeat 0%Z 256))) as [r' Hr'].
  destruct (C66_bf16_threads_refuted AVX512F 0 0 (repeat 0%Z 256) r r') as (o & o' & -> & -> & H); auto; try reflexivity; try (apply repeat_bytes; unfold is_byte; lia).
  exists o, o'. split; auto. split; auto. intros <-. destruct (H 0%nat ltac:(lia)) as [H1 H2]. rewrite H1 in H2. discriminate.
Qed.
