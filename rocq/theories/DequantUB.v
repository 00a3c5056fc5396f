(** DequantUB.v -- a signed overflow in a scalar step of a dequantization makes the whole call undefined, in every schedule. *)
From Coq Require Import ZArith List Lia Bool Arith ZifyBool ZifyNat.
From Verif Require Import Base Floats Simd Dtypes Spec ApiSpec QuantKernels DequantKernels ExecFacts LoopFacts QuantFacts QuantKernelFacts QuantGenericFacts
  DequantFacts DequantGenericFacts Context ContextFacts QuantizeFacts DequantizeFacts Api NoAbort ScalarUB.
Import ListNotations.
Ltac Zify.zify_post_hook ::= Z.div_mod_to_equations.

Lemma in_blk_al (body : nat -> action) s k n x : k >= 1 -> s mod k = 0 -> s <= x < blk_end s k n ->
  exists j, In (body j) (map (fun m => body (s + k * m)) (seq 0 ((n - s) / k))) /\ j <= x < j + k /\ j + k <= blk_end s k n /\ j mod k = 0.
Proof.
  intros Hk Hm [H1 H2]. exists (s + k * ((x - s) / k)). unfold blk_end in *.
  assert (Hk0 : k <> 0) by lia. pose proof (Nat.div_mod (x - s) k Hk0) as D. pose proof (Nat.mod_upper_bound (x - s) k Hk0) as U.
  assert (M : (s + k * ((x - s) / k)) mod k = 0) by (rewrite Nat.mul_comm, Nat.mod_add by lia; exact Hm).
  split; [|split; [|split; [|exact M]]].
  - apply (in_map (fun m => body (s + k * m))). apply in_seq. set (a := (x - s) / k) in *. set (b := (n - s) / k) in *. clearbody a b. clear M. nia.
  - set (a := (x - s) / k) in *. clearbody a. clear M H2. nia.
  - clear M. set (a := (x - s) / k) in *. set (b := (n - s) / k) in *. set (c := (x - s) mod k) in *. clearbody a b c. clear Hm. assert (a < b) by nia. assert (k * S a <= k * b) by (apply Nat.mul_le_mono_l; lia). nia.
Qed.

Section D.
Variables (inm : mem) (din : dtype) (e numel i : nat) (step : Z -> res f32) (pt : f32 -> mem -> mem).
Hypothesis Hbytes : Forall is_byte inm.
Hypothesis Hin : bytes_for din numel <= length inm.
Hypothesis Hi : i < numel.
Hypothesis Hna : forall q, na (step q).
Hypothesis Hbad : step (code_at din inm i) = UB.

Lemma step_put_ub q p o : step q = UB -> step_put step p q o = UB.
Proof. intros H. unfold step_put. rewrite H. reflexivity. Qed.

Lemma dub_u8 : din = DT_UINT8 -> ub_on inm (dact_u8 e step pt i).
Proof.
  intros Hd o. rewrite Hd in *. rewrite bytes_for_u8 in Hin. unfold dact_u8. cbn [a_ioff a_ilen a_fn]. rewrite nth_slice by lia.
  rewrite Nat.add_0_r. apply step_put_ub. rewrite <- code_at_u8; auto.
Qed.
Lemma dub_u4_pair j : din = DT_UINT4 -> j mod 2 = 0 -> j <= i < j + 2 -> ub_on inm (dact_u4_pair e step pt j).
Proof.
  intros Hd Hm Hj o. assert (Hin' : (numel + 1) / 2 <= length inm) by (rewrite <- bytes_for_u4, <- Hd; auto).
  unfold dact_u4_pair. cbn [a_ioff a_ilen a_fn]. cbv zeta. rewrite div2_half. rewrite nth_slice by lia. rewrite Nat.add_0_r.
  assert (C0 : Z.land (nth (j / 2) inm 0%Z) 15 = code_at din inm j).
  { rewrite Hd. replace j with (2 * (j / 2) + 0) at 2 by lia. rewrite code_at_u4 by lia.
    change (2 ^ (4 * Z.of_nat 0))%Z with 1%Z. rewrite Z.div_1_r. apply land15_mod. }
  assert (C1 : Z.shiftr (nth (j / 2) inm 0%Z) 4 = code_at din inm (S j)).
  { rewrite Hd. replace (S j) with (2 * (j / 2) + 1) by lia. rewrite code_at_u4 by lia.
    pose proof (nth_is_byte inm (j / 2) Hbytes) as B. unfold is_byte in B. rewrite Z.shiftr_div_pow2 by lia.
    change (2 ^ (4 * Z.of_nat 1))%Z with 16%Z. change (2 ^ 4)%Z with 16%Z. rewrite Z.mod_small; lia. }
  rewrite C0, C1. assert (i = j \/ i = S j) as [E|E] by lia; rewrite <- E.
  - apply bind_ub_l, step_put_ub. exact Hbad.
  - apply bind_ub_r; [apply na_step_put; auto|]. intros x. apply bind_ub_l, step_put_ub. exact Hbad.
Qed.
Lemma dub_u4_odd : din = DT_UINT4 -> i = numel - 1 -> i mod 2 = 0 -> ub_on inm (dact_u4_odd e step pt numel i).
Proof.
  intros Hd E Hm o. assert (Hin' : (numel + 1) / 2 <= length inm) by (rewrite <- bytes_for_u4, <- Hd; auto).
  unfold dact_u4_odd. cbn [a_ioff a_ilen a_fn]. rewrite div2_half. rewrite nth_slice by lia. rewrite Nat.add_0_r.
  apply step_put_ub. rewrite <- Hbad. f_equal. rewrite Hd. replace i with (2 * (i / 2) + 0) at 2 by lia. rewrite code_at_u4 by lia.
  change (2 ^ (4 * Z.of_nat 0))%Z with 1%Z. rewrite Z.div_1_r. apply land15_mod.
Qed.
Lemma u2_elems_ub p o n : forall k j, k <= j < k + n -> step (code2 p j) = UB -> u2_elems e step pt p k n o = UB.
Proof.
  induction n as [|n IH]; intros k j Hj H; [lia|]. cbn [u2_elems]. destruct (Nat.eq_dec j k) as [->|N].
  - apply bind_ub_l, step_put_ub. exact H.
  - apply bind_ub_r; [apply na_step_put; auto|]. intros x. apply bind_ub_l. apply (IH (S k) j); auto. lia.
Qed.
Lemma dub_u2 n j : din = DT_UINT2 -> j mod 4 = 0 -> n <= 4 -> j <= i < j + n -> ub_on inm (dact_u2 e step pt n j).
Proof.
  intros Hd Hm Hn Hj o. assert (Hin' : (numel + 3) / 4 <= length inm) by (rewrite <- bytes_for_u2, <- Hd; auto).
  unfold dact_u2. cbn [a_ioff a_ilen a_fn]. change (Nat.div2 (Nat.div2 j)) with (quarter_idx j). rewrite quarter_div.
  rewrite nth_slice by lia. rewrite Nat.add_0_r. apply u2_elems_ub with (j := i - j); [lia|]. rewrite <- Hbad. f_equal.
  rewrite Hd. replace i with (4 * (j / 4) + (i - j)) at 2 by lia. rewrite code_at_u2 by lia.
  unfold code2. rewrite land3_mod, Z.shiftr_div_pow2 by lia. reflexivity.
Qed.

Lemma dtail_u8 acts s : din = DT_UINT8 -> s <= i -> s <= numel ->
  exists a, In a (fst (run_loop numel (acts, s) (blk_cond numel 1, 1, dact_u8 e step pt))) /\ ub_on inm a.
Proof.
  intros Hd Hs Hsn. rewrite run_loop_blk by lia. cbn [fst].
  assert (E : i < blk_end s 1 numel) by (unfold blk_end; rewrite Nat.div_1_r; lia).
  assert (Hk : 1 >= 1) by lia. destruct (in_blk (dact_u8 e step pt) s 1 numel i Hk (conj Hs E)) as (j & HI & Hj & _).
  exists (dact_u8 e step pt j). split; [apply in_or_app; right; exact HI|]. assert (j = i) by lia. subst j. apply dub_u8; auto.
Qed.
Lemma dtail_u4 acts s : din = DT_UINT4 -> s mod 2 = 0 -> s <= i -> s <= numel ->
  exists a, In a (du4_finish e step pt numel (run_loop numel (acts, s) (blk_cond numel 2, 2, dact_u4_pair e step pt))) /\ ub_on inm a.
Proof.
  intros Hd Hm Hs Hsn. rewrite run_loop_blk by lia. unfold du4_finish. cbn [fst snd].
  pose proof (blk_end_le s 2 numel Hsn) as Hle.
  destruct (le_lt_dec (blk_end s 2 numel) i) as [H|H].
  - assert (En : numel = S (blk_end s 2 numel)) by (unfold blk_end in *; lia).
    assert (HO : Nat.odd numel = true). { apply Nat.odd_spec. exists (numel / 2). unfold blk_end in *; lia. }
    rewrite HO. eexists. split; [apply in_or_app; right; left; reflexivity|]. replace (blk_end s 2 numel) with i by lia.
    apply dub_u4_odd; auto; [lia|]. replace i with (blk_end s 2 numel) by lia. unfold blk_end. lia.
  - assert (Hk : 2 >= 1) by lia. destruct (in_blk_al (dact_u4_pair e step pt) s 2 numel i Hk Hm (conj Hs H)) as (j & HI & Hj & Hjn & Hjm).
    exists (dact_u4_pair e step pt j). split; [apply in_or_app; left; apply in_or_app; right; exact HI|]. apply dub_u4_pair; auto.
Qed.
End D.

Section K.
Variables (A : arch) (din dout : dtype) (op : reduce_op) (numel : nat) (scale : f32) (zp : Z) (inm : mem) (i : nat).
Hypothesis Hq : is_q din.
Hypothesis Hfp : is_fp dout.
Hypothesis Hbytes : Forall is_byte inm.
Hypothesis Hin : bytes_for din numel <= length inm.
Hypothesis Hi : i < numel.
Hypothesis HV : vec_end (dq_block A din dout) numel <= i.
Hypothesis Hbad : dq_scalar din dout scale zp (code_at din inm i) = UB.

Theorem dscalar_ub : exists a, In a (dequant_generic A din dout op numel scale zp) /\ ub_on inm a.
Proof.
  assert (N32 : forall q, na (dq_i32 scale (wrap32 zp) q)) by (intros; apply na_dq_i32).
  assert (N64 : forall q, na (dq_i64 scale zp q)) by (intros; apply na_dq_i64).
  unfold vec_end in HV. unfold dequant_generic.
  destruct Hq as [Ei|[Ei|Ei]], Hfp as [Eo|Eo]; rewrite Ei, Eo in *; cbn [dq_scalar] in Hbad.
  - (* uint2 -> f32 *)
    unfold dequant_uint2_f32, seq_loops. cbn [fold_left]. rewrite run_loop_blk by lia. cbv zeta. cbn [fst snd app].
    assert (HE : blk_end 0 4 numel = 4 * (numel / 4)) by (unfold blk_end; rewrite Nat.sub_0_r; lia).
    destruct (le_lt_dec (blk_end 0 4 numel) i) as [H|H].
    + eexists. split; [apply in_or_app; right; left; reflexivity|]. rewrite HE in *. apply dub_u2 with (din := DT_UINT2) (numel := numel) (i := i); auto; lia.
    + assert (Hk : 4 >= 1) by lia. assert (H0 : 0 mod 4 = 0) by reflexivity.
      destruct (in_blk_al (dact_u2 4 (dq_i64 scale zp) (put_f32 op) 4) 0 4 numel i Hk H0 (conj (Nat.le_0_l _) H)) as (j & HI & Hj & Hjn & Hjm).
      eexists. split; [apply in_or_app; left; exact HI|]. apply dub_u2 with (din := DT_UINT2) (numel := numel) (i := i); auto; lia.
  - (* uint2 -> bf16: never undefined *) discriminate.
  - (* uint4 -> f32 *)
    unfold dequant_uint4_to_f32. cbv zeta. unfold seq_loops.
    destruct A; cbn [app fold_left dq_block] in *; try (apply dtail_u4 with (din := DT_UINT4) (i := i); auto; lia);
      rewrite run_loop_blk by lia; apply dtail_u4 with (din := DT_UINT4) (i := i); auto; unfold blk_end; rewrite Nat.sub_0_r; lia.
  - unfold dequant_uint4_to_bf16. unfold seq_loops.
    destruct A; cbn [app fold_left dq_block] in *; try (apply dtail_u4 with (din := DT_UINT4) (i := i); auto; lia);
      rewrite run_loop_blk by lia; apply dtail_u4 with (din := DT_UINT4) (i := i); auto; unfold blk_end; rewrite Nat.sub_0_r; lia.
  - unfold dequant_uint8_to_f32. cbv zeta. unfold seq_loops.
    destruct A; cbn [app fold_left dq_block] in *; try (apply dtail_u8 with (din := DT_UINT8) (i := i); auto; lia);
      rewrite run_loop_blk by lia; apply dtail_u8 with (din := DT_UINT8) (i := i); auto; unfold blk_end; rewrite Nat.sub_0_r; lia.
  - unfold dequant_uint8_to_bf16. unfold seq_loops.
    destruct A; cbn [app fold_left dq_block] in *; try (apply dtail_u8 with (din := DT_UINT8) (i := i); auto; lia);
      rewrite run_loop_blk by lia; apply dtail_u8 with (din := DT_UINT8) (i := i); auto; unfold blk_end; rewrite Nat.sub_0_r; lia.
Qed.
End K.

Lemma dequantize_ub A nt oaddr in_size din out_size dout scale zp op inm outm r t i :
  quant_type din -> float_type dout -> in_size = bytes_for din (numel dout out_size) -> sizes_ok out_size (numel dout out_size) nt ->
  Forall is_byte inm -> in_size <= length inm ->
  let n := numel dout out_size in
  let b := part_bound (per_byte din) n nt in
  t < nt -> b t <= i < b (S t) ->
  vec_end (dq_block A din dout) (b (S t) - b t) <= i - b t ->
  dq_scalar din dout scale zp (code_at din inm i) = UB ->
  returns inm outm (dequantize A nt oaddr (Z.of_nat in_size) din (Z.of_nat out_size) dout scale zp op) r -> r = UB.
Proof.
  intros Hq Hfp Ho HS Hb Hin n b Ht Hi HV HU HR.
  pose proof (dequantize_jobs A nt oaddr in_size din out_size dout scale zp op Hq Hfp Ho HS) as E. rewrite E in HR.
  apply returns_jobs in HR. destruct HR as (tr & HI & ->). fold n in E, HI.
  assert (Hnt : nt > 0) by lia.
  assert (Hpe : per_byte din > 0) by (clear -Hq; destruct Hq as [->|[->| ->]]; cbn; lia).
  pose proof (part_le (per_byte din) n nt Hpe Hnt (S t)) as Hle. fold b in Hle.
  destruct (part_aligned _ n nt Hpe Hnt t Ht) as [c Hc]. fold b in Hc.
  assert (Hbd : b t / per_byte din = c) by (rewrite Hc, (Nat.mul_comm _ c), Nat.div_mul by lia; reflexivity).
  destruct (dscalar_ub A din dout op (b (S t) - b t) scale zp (skipn c inm) (i - b t) Hq Hfp) as (a & Ia & Ua); auto.
  - apply skipn_is_byte; auto.
  - rewrite skipn_length. fold n in Ho. rewrite bytes_for_per_byte in * by auto.
    assert (bytes_for din (b (S t)) <= bytes_for din n) as Hb' by (rewrite !bytes_for_per_byte by auto; apply Nat.div_le_mono; lia).
    rewrite !bytes_for_per_byte in Hb' by auto.
    replace (b (S t)) with (c * per_byte din + (b (S t) - b t)) in Hb' by lia.
    rewrite <- Nat.add_assoc, Nat.div_add_l in Hb' by lia. lia.
  - lia.
  - rewrite code_at_skipn by auto. rewrite <- Hc. replace (b t + (i - b t)) with i by lia. exact HU.
  - eapply run_trace_ub with (a := shift_action (b t / per_byte din) (esize dout * b t) a).
    + eapply interleave_Forall; [exact HI|]. apply Forall_forall. intros l Hl. apply in_map_iff in Hl. destruct Hl as (u & <- & _).
      unfold d_job. destruct (_ <=? _); [constructor|]. apply Forall_map. eapply Forall_impl; [|apply dequant_generic_quiet]. intros x. apply shift_quiet.
    + eapply interleave_In; [exact HI|apply in_map, in_seq; split; [apply Nat.le_0_l|exact Ht]|].
      unfold d_job. fold b. rewrite (proj2 (Nat.leb_gt _ _)) by lia. apply in_map. exact Ia.
    + rewrite Hbd. apply ub_shift. exact Ua.
Qed.
