(** PropsMemory.v -- C02 layout, C03/C09 bounds, C04 schedules, C05 races, C06 partition, C12 saturation, C19, C31, C35. *)
From Coq Require Import ZArith List Lia Bool Arith ZifyBool ZifyNat Permutation Reals Lra.
From Flocq Require Import Core Binary Bits.
From Verif Require Import Base Floats Simd Dtypes Spec ApiSpec QuantKernels DequantKernels ExecFacts FloatFacts QuantFacts QuantKernelFacts
  QuantGenericFacts DequantFacts DequantGenericFacts QuantLanes Context ContextFacts Footprint QuantizeFacts DequantizeFacts Api PropsQuantize Schedule.
Import ListNotations.

Ltac Zify.zify_post_hook ::= Z.div_mod_to_equations.

(** ** C02: packed layout and zero padding *)
Theorem C02_layout A nt oaddr din dout scale zp rm thr inm outm r :
  buffers_ok nt din dout inm outm -> good_scale scale ->
  (rm = RM_STOCHASTIC -> threshold thr /\ (Z.abs zp <= 2 ^ 62)%Z) -> (rm = RM_NEAREST -> (Z.abs zp <= 2 ^ 22)%Z) ->
  (forall i, i < numel din (length inm) -> input_ok A rm scale zp thr (elem_at din inm i)) ->
  returns inm outm (quantize_call A nt oaddr din dout scale zp rm thr inm outm) r ->
  let n := numel din (length inm) in
  let C i := expected_code rm dout scale zp thr (elem_at din inm i) in
  exists o, r = Ok o /\ length o = length outm /\
    (* byte k holds elements k*c .. k*c+c-1 (c codes per byte) at bit offsets bits*j, zeros beyond the last element *)
    (forall k, k < length o -> nth k o 0%Z = packed_byte dout n C k) /\
    (forall i, i < n -> code_at dout o i = C i) /\
    (forall i, n <= i < codes_per_byte dout * length o -> code_at dout o i = 0%Z).
Proof.
  intros (Hfp & Hq & Hb & Hl & HS) Hsc Hst Hne HI HR n C. unfold quantize_call in HR.
  apply quantize_bytes in HR; auto. fold n in HR, Hl.
  eexists. split; [exact HR|]. rewrite skipn_all, app_nil_r. split; [rewrite map_length, seq_length; auto|].
  rewrite map_length, seq_length. split.
  { intros k Hk. rewrite nth_map_seq by auto. reflexivity. }
  assert (G : forall i, i < per_byte dout * length outm -> code_at dout (map (packed_byte dout n C) (seq 0 (length outm))) i = cut n C i).
  { intros i Hi.
    rewrite (map_ext _ (byte_of dout (cut n C))) by (intros; symmetry; apply byte_of_packed; auto).
    rewrite Hl in *. rewrite <- (app_nil_r (map _ _)). apply code_at_byte_of; auto.
    intros; apply expected_range; auto. }
  split.
  - intros i Hi. rewrite G; [apply cut_lt; auto|]. rewrite Hl, bytes_for_per_byte by auto. destruct Hq as [->|[->| ->]]; cbn [per_byte]; lia.
  - intros i Hi. rewrite codes_per_byte_q in Hi by auto. rewrite G by lia. apply cut_ge. lia.
Qed.

(** ** C03: footprint (all data), and frame *)
Theorem C03_footprint A nt oaddr din dout scale zp rm thr in_size out_size jobs :
  float_type din -> quant_type dout -> out_size = bytes_for dout (numel din in_size) -> sizes_ok in_size (numel din in_size) nt ->
  quantize A nt oaddr (Z.of_nat in_size) din (Z.of_nat out_size) dout scale zp rm thr = Ok jobs ->
  length jobs = nt /\
  (forall j a k, In j jobs -> In a j -> touches_in a k -> k < in_size) /\
  (forall j a k, In j jobs -> In a j -> touches_out a k -> k < out_size) /\
  (forall k, k < out_size -> exists j a, In j jobs /\ In a j /\ touches_out a k).
Proof.
  intros Hfp Hq Ho HS HJ. rewrite quantize_jobs in HJ by auto. injection HJ as <-. pose proof (numel_le din in_size Hfp) as Hn.
  destruct (q_foot A din dout rm oaddr (numel din in_size) nt scale (thr_of rm thr) zp Hfp Hq) as [T W]; [destruct HS; lia|].
  set (jobs := map _ _) in *.
  assert (HW : forall j a, In j jobs -> In a j -> within (esize din * numel din in_size) (bytes_for dout (numel din in_size)) a).
  { intros j a Hj Ha. rewrite Forall_forall in W. apply W. apply in_concat. eauto. }
  split; [unfold jobs; rewrite map_length, seq_length; auto|]. split; [|split].
  - intros j a k Hj Ha Hk. destruct (HW j a Hj Ha). unfold touches_in in Hk. lia.
  - intros j a k Hj Ha Hk. destruct (HW j a Hj Ha). unfold touches_out in Hk. lia.
  - intros k Hk. destruct (tiles_cover _ _ _ k T) as (a & Ha & Hr); [lia|]. apply in_concat in Ha. destruct Ha as (j & Hj & Ha). exists j, a. auto.
Qed.

(** Larger allocations: the call succeeds, bytes behind the output span keep their value, and neither the old contents of
    the output nor input bytes behind the input span matter. *)
Theorem C03_frame A nt oaddr din dout scale zp rm thr inm inm' outm outm' in_size out_size r r' :
  float_type din -> quant_type dout -> Forall is_byte inm -> Forall is_byte inm' ->
  in_size <= length inm -> in_size <= length inm' -> out_size <= length outm -> out_size <= length outm' ->
  firstn in_size inm = firstn in_size inm' ->
  out_size = bytes_for dout (numel din in_size) -> sizes_ok in_size (numel din in_size) nt -> good_scale scale ->
  (rm = RM_STOCHASTIC -> threshold thr /\ (Z.abs zp <= 2 ^ 62)%Z) -> (rm = RM_NEAREST -> (Z.abs zp <= 2 ^ 22)%Z) ->
  (forall i, i < numel din in_size -> input_ok A rm scale zp thr (elem_at din inm i)) ->
  let call := quantize A nt oaddr (Z.of_nat in_size) din (Z.of_nat out_size) dout scale zp rm thr in
  returns inm outm call r -> returns inm' outm' call r' ->
  exists o o', r = Ok o /\ r' = Ok o' /\ length o = length outm /\ length o' = length outm' /\
    (forall k, out_size <= k -> nth k o 0%Z = nth k outm 0%Z) /\ (forall k, out_size <= k -> nth k o' 0%Z = nth k outm' 0%Z) /\
    firstn out_size o = firstn out_size o'.
Proof.
  intros Hfp Hq Hb Hb' Hi Hi' Ho Ho' Heq Hos HS Hsc Hst Hne HI call HR HR'.
  pose proof (numel_le din in_size Hfp) as Hn.
  assert (HX : forall i, i < numel din in_size -> elem_at din inm i = elem_at din inm' i).
  { intros i Hii. assert (G : forall e, e = esize din -> slice (e * i) e inm = slice (e * i) e inm').
    { intros e ->. assert (S : forall m : mem, slice (esize din * i) (esize din) m = slice (esize din * i) (esize din) (firstn in_size m)).
      { intros m. unfold slice. rewrite skipn_firstn_comm, firstn_firstn. f_equal. nia. }
      rewrite (S inm), (S inm'), Heq. reflexivity. }
    destruct Hfp as [->| ->]; unfold elem_at, f32_at, bf16_at; rewrite G by reflexivity; reflexivity. }
  unfold call in *. apply quantize_bytes in HR; auto. apply quantize_bytes in HR'; auto; [|intros i Hii; rewrite <- HX by auto; auto].
  eexists _, _. split; [exact HR|]. split; [exact HR'|].
  assert (HL : forall (m : mem) f, out_size <= length m -> length (map f (seq 0 out_size) ++ skipn out_size m) = length m).
  { intros m f Hm. rewrite app_length, map_length, seq_length, skipn_length. lia. }
  assert (HN : forall (m : mem) f k, out_size <= k -> nth k (map f (seq 0 out_size) ++ skipn out_size m) 0%Z = nth k m 0%Z).
  { intros m f k Hk. rewrite app_nth2; rewrite map_length, seq_length; auto. rewrite nth_skipn. f_equal. lia. }
  repeat split; auto.
  rewrite !firstn_app. rewrite !map_length, seq_length, Nat.sub_diag. cbn [firstn]. f_equal. f_equal.
  apply map_ext_in. intros k Hk. unfold packed_byte. f_equal. apply map_ext. intros j.
  destruct (Nat.ltb_spec (codes_per_byte dout * k + j) (numel din in_size)); auto. rewrite HX by auto. reflexivity.
Qed.

(** ** C04: schedules and thread counts *)
Lemma tiles_fop lo hi jobs : tiles lo hi (concat jobs) -> ForallOrdPairs disj (concat jobs).
Proof. apply tiles_disj. Qed.

Lemma schedule_free inm outm jobs r1 r2 : ForallOrdPairs disj (concat jobs) -> Forall no_abort (concat jobs) ->
  returns inm outm (Ok jobs) r1 -> returns inm outm (Ok jobs) r2 -> r1 = r2.
Proof.
  intros HD HN H1 H2. apply returns_jobs in H1, H2. destruct H1 as (t1 & I1 & ->), H2 as (t2 & I2 & ->).
  apply interleave_perm in I1, I2. rewrite <- (run_trace_perm inm _ _ I1 HD HN), <- (run_trace_perm inm _ _ I2 HD HN). reflexivity.
Qed.

(** Any two schedules of the same quantize call have the same outcome, whatever the data (NaN, infinities, any scale). *)
Theorem C04_schedule A nt oaddr din dout scale zp rm thr in_size out_size inm outm r1 r2 :
  float_type din -> quant_type dout -> out_size = bytes_for dout (numel din in_size) -> sizes_ok in_size (numel din in_size) nt ->
  let call := quantize A nt oaddr (Z.of_nat in_size) din (Z.of_nat out_size) dout scale zp rm thr in
  returns inm outm call r1 -> returns inm outm call r2 -> r1 = r2.
Proof.
  intros Hfp Hq Ho HS call H1 H2. unfold call in *. rewrite quantize_jobs in H1, H2 by auto.
  destruct (q_foot A din dout rm oaddr (numel din in_size) nt scale (thr_of rm thr) zp Hfp Hq) as [T _]; [destruct HS; lia|].
  eapply schedule_free; eauto using tiles_fop. apply jobs_Forall. intros. apply q_job_na.
Qed.
Theorem C04_schedule_dequantize A nt oaddr din dout scale zp op in_size out_size inm outm r1 r2 :
  quant_type din -> float_type dout -> in_size = bytes_for din (numel dout out_size) -> sizes_ok out_size (numel dout out_size) nt ->
  let call := dequantize A nt oaddr (Z.of_nat in_size) din (Z.of_nat out_size) dout scale zp op in
  returns inm outm call r1 -> returns inm outm call r2 -> r1 = r2.
Proof.
  intros Hq Hfp Ho HS call H1 H2. unfold call in *. rewrite dequantize_jobs in H1, H2 by auto.
  destruct (d_foot A din dout op (numel dout out_size) nt scale zp Hq Hfp) as [T _]; [destruct HS; lia|].
  eapply schedule_free; eauto using tiles_fop. apply jobs_Forall. intros. apply d_job_na.
Qed.
Theorem C04_schedule_fused A nt oaddr dt dq scale zp rm op thr size inm outm r1 r2 :
  float_type dt -> quant_type dq -> sizes_ok size (numel dt size) nt ->
  let call := quantize_dequantize_fused A nt oaddr (Z.of_nat size) dt (Z.of_nat size) dq scale zp rm op thr in
  returns inm outm call r1 -> returns inm outm call r2 -> r1 = r2.
Proof.
  intros Hfp Hq HS call H1 H2. unfold call in *. rewrite fused_jobs in H1, H2 by auto.
  destruct (f_foot dt dq rm op (numel dt size) nt scale (thr_of rm thr) zp Hfp Hq) as [T _]; [destruct HS; lia|].
  eapply schedule_free; eauto using tiles_fop. apply jobs_Forall. intros. apply f_job_na.
Qed.

(** Thread count, output address and schedule do not change the result (nor does the kernel set). *)
Theorem C04_threads A A' nt nt' oaddr oaddr' din dout scale zp rm thr inm outm r r' :
  buffers_ok nt din dout inm outm -> buffers_ok nt' din dout inm outm -> good_scale scale ->
  (rm = RM_STOCHASTIC -> threshold thr /\ (Z.abs zp <= 2 ^ 62)%Z) -> (rm = RM_NEAREST -> (Z.abs zp <= 2 ^ 22)%Z) ->
  (forall i, i < numel din (length inm) -> input_ok A rm scale zp thr (elem_at din inm i)) ->
  (forall i, i < numel din (length inm) -> input_ok A' rm scale zp thr (elem_at din inm i)) ->
  returns inm outm (quantize_call A nt oaddr din dout scale zp rm thr inm outm) r ->
  returns inm outm (quantize_call A' nt' oaddr' din dout scale zp rm thr inm outm) r' ->
  r = r' /\ exists o, r = Ok o.
Proof.
  intros (Hfp & Hq & Hb & Hl & HS) (_ & _ & _ & _ & HS') Hsc Hst Hne HI HI' HR HR'. unfold quantize_call in *.
  apply quantize_bytes in HR; auto. apply quantize_bytes in HR'; auto. rewrite HR, HR'. split; eauto.
Qed.

(** ** C05: no two threads share an output byte *)
Lemma fop_concat (jobs : list (list action)) : ForallOrdPairs disj (concat jobs) ->
  forall t u a b, t < u -> In a (nth t jobs []) -> In b (nth u jobs []) -> disj a b.
Proof.
  induction jobs as [|j jobs IH]; intros HF t u a b Htu Ha Hb.
  - destruct t; destruct Ha.
  - cbn [concat] in HF. assert (HT : ForallOrdPairs disj (concat jobs)).
    { clear - HF. induction j as [|x j IH]; auto. inversion HF; auto. }
    destruct u as [|u]; [lia|]. cbn [nth] in Hb. destruct t as [|t]; cbn [nth] in Ha.
    + clear IH HT. assert (Hb' : In b (concat jobs)).
      { apply in_concat. exists (nth u jobs []). split; auto. destruct (Nat.lt_ge_cases u (length jobs)) as [L|L]; [apply nth_In; auto|].
        rewrite nth_overflow in Hb by auto. destruct Hb. }
      induction j as [|x j IH]; [destruct Ha|]. inversion HF as [|? ? F1 F2]; subst. destruct Ha as [->|Ha]; auto.
      rewrite Forall_forall in F1. apply F1. apply in_or_app. auto.
    + apply (IH HT t u a b); auto. lia.
Qed.
Definition no_shared_output (jobs : list (list action)) : Prop :=
  forall t u a b k, t <> u -> In a (nth t jobs []) -> In b (nth u jobs []) -> touches_out a k -> ~ touches_out b k.
Lemma no_shared_intro jobs : ForallOrdPairs disj (concat jobs) -> no_shared_output jobs.
Proof.
  intros HF t u a b k Hne Ha Hb Ta Tb. unfold touches_out in *.
  assert (t < u \/ u < t) as [H|H] by lia.
  - pose proof (fop_concat _ HF _ _ _ _ H Ha Hb) as HD. unfold disj in HD. lia.
  - pose proof (fop_concat _ HF _ _ _ _ H Hb Ha) as HD. unfold disj in HD. lia.
Qed.

(** For every kernel set, dtype pair, length, thread count, scale, zero point and data. (An action never writes the
    input: it is a function from input and output bytes to output bytes.) *)
Theorem C05_quantize_no_shared_output A nt oaddr din dout scale zp rm thr in_size out_size jobs :
  float_type din -> quant_type dout -> out_size = bytes_for dout (numel din in_size) -> sizes_ok in_size (numel din in_size) nt ->
  quantize A nt oaddr (Z.of_nat in_size) din (Z.of_nat out_size) dout scale zp rm thr = Ok jobs ->
  length jobs = nt /\ no_shared_output jobs.
Proof.
  intros Hfp Hq Ho HS HJ. rewrite quantize_jobs in HJ by auto. injection HJ as <-. split; [rewrite map_length, seq_length; auto|].
  destruct (q_foot A din dout rm oaddr (numel din in_size) nt scale (thr_of rm thr) zp Hfp Hq) as [T _]; [destruct HS; lia|].
  apply no_shared_intro. eapply tiles_fop; eauto.
Qed.
Theorem C05_dequantize_no_shared_output A nt oaddr din dout scale zp op in_size out_size jobs :
  quant_type din -> float_type dout -> in_size = bytes_for din (numel dout out_size) -> sizes_ok out_size (numel dout out_size) nt ->
  dequantize A nt oaddr (Z.of_nat in_size) din (Z.of_nat out_size) dout scale zp op = Ok jobs ->
  length jobs = nt /\ no_shared_output jobs.
Proof.
  intros Hq Hfp Ho HS HJ. rewrite dequantize_jobs in HJ by auto. injection HJ as <-. split; [rewrite map_length, seq_length; auto|].
  destruct (d_foot A din dout op (numel dout out_size) nt scale zp Hq Hfp) as [T _]; [destruct HS; lia|].
  apply no_shared_intro. eapply tiles_fop; eauto.
Qed.
Theorem C05_fused_no_shared_output A nt oaddr dt dq scale zp rm op thr size jobs :
  float_type dt -> quant_type dq -> sizes_ok size (numel dt size) nt ->
  quantize_dequantize_fused A nt oaddr (Z.of_nat size) dt (Z.of_nat size) dq scale zp rm op thr = Ok jobs ->
  length jobs = nt /\ no_shared_output jobs.
Proof.
  intros Hfp Hq HS HJ. rewrite fused_jobs in HJ by auto. injection HJ as <-. split; [rewrite map_length, seq_length; auto|].
  destruct (f_foot dt dq rm op (numel dt size) nt scale (thr_of rm thr) zp Hfp Hq) as [T _]; [destruct HS; lia|].
  apply no_shared_intro. eapply tiles_fop; eauto.
Qed.

(** ** C06: the partition *)
Lemma part_balanced pe n nt t : pe > 0 -> nt > 0 -> t < nt ->
  n / nt <= (part_bound pe n nt (S t) - part_bound pe n nt t) + (pe - 1) /\ part_bound pe n nt (S t) - part_bound pe n nt t <= (n + (nt - 1)) / nt + (pe - 1).
Proof.
  intros Hp Hn Ht.
  assert (Q : n * t / nt + n / nt <= n * S t / nt <= n * t / nt + (n + (nt - 1)) / nt).
  { pose proof (Nat.div_mod (n * t) nt ltac:(lia)) as D1. pose proof (Nat.mod_upper_bound (n * t) nt ltac:(lia)) as M1.
    pose proof (Nat.div_mod n nt ltac:(lia)) as D2. pose proof (Nat.mod_upper_bound n nt ltac:(lia)) as M2.
    pose proof (Nat.div_mod (n + (nt - 1)) nt ltac:(lia)) as D3. pose proof (Nat.mod_upper_bound (n + (nt - 1)) nt ltac:(lia)) as M3.
    set (q1 := n * t / nt) in *. set (q2 := n / nt) in *. set (q3 := (n + (nt - 1)) / nt) in *.
    set (r1 := (n * t) mod nt) in *. set (r2 := n mod nt) in *. set (r3 := (n + (nt - 1)) mod nt) in *. clearbody q1 q2 q3 r1 r2 r3.
    split.
    - apply Nat.div_le_lower_bound; [lia|]. nia.
    - apply Nat.lt_succ_r. apply Nat.div_lt_upper_bound; [lia|]. nia. }
  assert (AL : forall v, v <= pe * (v / pe) + (pe - 1) /\ pe * (v / pe) <= v).
  { intros v. pose proof (Nat.div_mod v pe ltac:(lia)). pose proof (Nat.mod_upper_bound v pe ltac:(lia)). lia. }
  assert (B1 : part_bound pe n nt t = pe * (n * t / nt / pe)) by (unfold part_bound; destruct (Nat.eqb_spec t nt); [lia|reflexivity]).
  assert (B2 : n * S t / nt <= part_bound pe n nt (S t) + (pe - 1) /\ part_bound pe n nt (S t) <= n * S t / nt).
  { unfold part_bound. destruct (Nat.eqb_spec (S t) nt) as [->|_]; [|apply AL]. rewrite Nat.div_mul by lia. lia. }
  pose proof (AL (n * t / nt)) as A. rewrite B1.
  set (x := pe * (n * t / nt / pe)) in *. set (y := part_bound pe n nt (S t)) in *. set (q := n * t / nt) in *. set (q' := n * S t / nt) in *.
  set (f := n / nt) in *. set (c := (n + (nt - 1)) / nt) in *. clearbody x y q q' f c. lia.
Qed.
Theorem C06_partition cmd n scale zp din dout rm op thr tc :
  1 <= tc -> (Z.of_nat n * Z.of_nat tc < 2 ^ 63)%Z -> (Z.of_nat tc < 2 ^ 63)%Z ->
  let d := mk_desc cmd (Z.of_nat n) scale zp din dout rm op thr in
  (* elements per packed byte on the packed side of the command *)
  let packed := match cmd with CMD_QUANT => dout | CMD_DEQUANT => din | CMD_QUANT_DEQUANT => if bit_size din <=? bit_size dout then dout else din end in
  let pe := if bit_size packed <? 8 then 8 / bit_size packed else 1 in
  exists b : nat -> nat,
    b 0 = 0 /\ b tc = n /\ (forall t, t < tc -> b t <= b (S t)) /\ (forall t, t < tc -> b t mod pe = 0) /\
    (* the work is balanced: every thread gets n/tc elements, rounded down or up, give or take the elements of one packed byte less one *)
    (forall t, t < tc -> n / tc <= (b (S t) - b t) + (pe - 1) /\ b (S t) - b t <= (n + (tc - 1)) / tc + (pe - 1)) /\
    forall t, t < tc ->
      partition_row d (Z.of_nat t) (Z.of_nat tc) =
      Ok (if b (S t) =? b t then None else Some (Z.of_nat (b t), Z.of_nat (b (S t) - b t))).
Proof.
  intros Htc Hov Hov2 d packed pe.
  assert (Hpe : pe > 0) by (unfold pe; destruct packed; cbn; lia).
  exists (part_bound pe n tc). split; [apply part_0; lia|]. split; [apply part_last|]. split; [intros; apply part_mono; lia|].
  split.
  { intros t Ht. destruct (part_aligned pe n tc Hpe ltac:(lia) t Ht) as [k ->]. rewrite Nat.mul_comm. apply Nat.mod_mul. lia. }
  split; [intros t Ht; apply part_balanced; lia|].
  intros t Ht. rewrite (partition_row_ok d n tc t pe); auto.
  - pose proof (part_mono pe n tc Hpe ltac:(lia) t Ht).
    destruct (Nat.leb_spec (part_bound pe n tc (S t)) (part_bound pe n tc t)), (Nat.eqb_spec (part_bound pe n tc (S t)) (part_bound pe n tc t)); auto; lia.
  - unfold pack_elems, packed_bits, d, pe, packed. cbn [d_type d_in d_out]. destruct cmd, din, dout; reflexivity.
Qed.

(** The bound numel*tc < 2^63 is sharp: beyond it the multiplication in the range computation of the last thread overflows int64. *)
Theorem C06_overflow cmd n scale zp din dout rm op thr tc :
  (1 <= tc < 2 ^ 63)%Z -> (0 <= n < 2 ^ 63)%Z -> (2 ^ 63 <= n * tc)%Z ->
  partition_row (mk_desc cmd n scale zp din dout rm op thr) (tc - 1) tc = UB.
Proof.
  intros Ht Hn Hov. unfold partition_row. cbn [d_numel]. unfold i64 at 1. destruct (in_i64 (n * (tc - 1))); [|reflexivity]. cbn [bind].
  replace (tc - 1 + 1)%Z with tc by lia. unfold i64 at 1, in_i64. replace ((-9223372036854775808 <=? tc) && (tc <=? 9223372036854775807))%Z with true by lia. cbn [bind].
  unfold i64, in_i64. replace ((-9223372036854775808 <=? n * tc) && (n * tc <=? 9223372036854775807))%Z with false by lia. reflexivity.
Qed.

(** ** C12: saturation.  Codes are clamped at both ends. *)
Theorem C12_saturation A nt oaddr din dout scale zp thr inm outm r :
  buffers_ok nt din dout inm outm -> good_scale scale -> (Z.abs zp <= 2 ^ 22)%Z ->
  (forall i, i < numel din (length inm) -> nearest_ok A scale (elem_at din inm i)) ->
  returns inm outm (quantize_call A nt oaddr din dout scale zp RM_NEAREST thr inm outm) r ->
  exists o, r = Ok o /\ forall i, i < numel din (length inm) ->
    let y := round_half_away (scaled (val scale) (val (elem_at din inm i))) in
    (0 <= code_at dout o i <= code_max dout)%Z /\
    ((y + zp <= 0)%Z -> code_at dout o i = 0%Z) /\
    ((code_max dout <= y + zp)%Z -> code_at dout o i = code_max dout) /\
    ((0 <= y + zp <= code_max dout)%Z -> code_at dout o i = (y + zp)%Z).
Proof.
  intros HB Hsc Hz HI HR. pose proof HB as (Hfp & Hq & _). pose proof (code_max_range dout Hq) as Hm.
  destruct (C01_quantize_nearest _ _ _ _ _ _ _ _ _ _ _ HB Hsc Hz HI HR) as (o & -> & _ & HC). exists o. split; auto.
  intros i Hi y. rewrite HC by auto. fold (code_max dout). fold (scaled (val scale) (val (elem_at din inm i))). fold y.
  unfold clamp. lia.
Qed.

(** Every scalar step and every vector lane returns a code in range, for every input including NaN and infinities. *)
Lemma clampZ_range mx v : (0 <= mx)%Z -> (0 <= clampZ 0 mx v <= mx)%Z.
Proof. intros H. unfold clampZ. destruct (Z.ltb_spec v 0), (Z.ltb_spec mx v); lia. Qed.
Theorem C12_scalar_range din dout rm thr inv zp x c : quant_type dout -> q_scalar din dout rm thr inv zp x = Ok c -> (0 <= c <= code_max dout)%Z.
Proof.
  intros Hq. pose proof (code_max_range dout Hq) as Hm. unfold q_scalar.
  assert (BI : forall X Y (r : res X) (f : X -> res Y) y, bind r f = Ok y -> exists x, r = Ok x /\ f x = Ok y).
  { intros X Y [a| |] f y H; cbn in H; try discriminate. eauto. }
  destruct (specialised din dout rm).
  - unfold q_nearest_i32. intros H. apply BI in H. destruct H as (q & _ & H). apply BI in H. destruct H as (q32 & _ & H). injection H as <-. apply clampZ_range. lia.
  - destruct rm; cbn [quant_step_scalar]; unfold q_nearest_i64, q_stochastic; cbv zeta; intros H; apply BI in H; destruct H as (q & _ & H);
    apply BI in H; destruct H as (q64 & _ & H); injection H as <-; apply clampZ_range; lia.
Qed.
Theorem C12_lane_range A dout inv zp x : quant_type dout -> (A = NEON -> dout = DT_UINT8) -> (0 <= lane A (code_max dout) inv zp x <= code_max dout)%Z.
Proof.
  intros Hq HA. pose proof (code_max_range dout Hq) as Hm. destruct A; cbn [lane]; try (unfold lane_x86; lia).
  rewrite (HA eq_refl). unfold lane_neon, sat_u8. change (code_max DT_UINT8) with 255%Z. lia.
Qed.

(** ** C19: bf16 inputs behave like the same values in f32 *)
Theorem C19_bf16_input A A' nt nt' oaddr oaddr' dout scale zp rm thr inm16 inm32 outm n r r' :
  length inm16 = 2 * n -> length inm32 = 4 * n ->
  buffers_ok nt DT_BF16 dout inm16 outm -> buffers_ok nt' DT_F32 dout inm32 outm ->
  (forall i, i < n -> f32_at inm32 i = f32_of_bits (bf16_at inm16 i * 65536)) -> good_scale scale ->
  (rm = RM_STOCHASTIC -> threshold thr /\ (Z.abs zp <= 2 ^ 62)%Z) -> (rm = RM_NEAREST -> (Z.abs zp <= 2 ^ 22)%Z) ->
  (forall i, i < n -> input_ok A rm scale zp thr (f32_at inm32 i)) -> (forall i, i < n -> input_ok A' rm scale zp thr (f32_at inm32 i)) ->
  returns inm16 outm (quantize_call A nt oaddr DT_BF16 dout scale zp rm thr inm16 outm) r ->
  returns inm32 outm (quantize_call A' nt' oaddr' DT_F32 dout scale zp rm thr inm32 outm) r' ->
  r = r' /\ exists o, r = Ok o.
Proof.
  intros L16 L32 (F16 & Hq & Hb & Hl & HS) (F32 & _ & Hb' & Hl' & HS') HX Hsc Hst Hne HI HI' HR HR'. unfold quantize_call in *.
  assert (N16 : numel DT_BF16 (length inm16) = n) by (unfold numel; rewrite L16; cbn [stride]; lia).
  assert (N32 : numel DT_F32 (length inm32) = n) by (unfold numel; rewrite L32; cbn [stride]; lia).
  apply quantize_bytes in HR; auto; [|rewrite N16; intros i Hi; cbn [elem_at]; rewrite <- HX by auto; auto].
  apply quantize_bytes in HR'; auto; [|rewrite N32; intros i Hi; cbn [elem_at]; auto].
  rewrite HR, HR', N16, N32. split; eauto. f_equal. f_equal. apply map_ext. intros k. unfold packed_byte. f_equal. apply map_ext. intros j.
  destruct (Nat.ltb_spec (codes_per_byte dout * k + j) n); auto. cbn [elem_at]. rewrite HX by auto. reflexivity.
Qed.

(** ** C31: one threshold per call *)
Theorem C31_equal_inputs_equal_codes A nt oaddr din dout scale zp thr inm outm r :
  buffers_ok nt din dout inm outm -> good_scale scale -> (Z.abs zp <= 2 ^ 62)%Z -> threshold thr ->
  (forall i, i < numel din (length inm) -> quantizable scale (elem_at din inm i)) ->
  returns inm outm (quantize_call A nt oaddr din dout scale zp RM_STOCHASTIC thr inm outm) r ->
  exists o, r = Ok o /\ forall i j, i < numel din (length inm) -> j < numel din (length inm) ->
    elem_at din inm i = elem_at din inm j -> code_at dout o i = code_at dout o j.
Proof.
  intros HB Hsc Hz Ht HI HR. destruct (C29_quantize_stochastic _ _ _ _ _ _ _ _ _ _ _ HB Hsc Hz Ht HI HR) as (o & -> & _ & HC).
  exists o. split; auto. intros i j Hi Hj E. rewrite !HC by auto. rewrite E. reflexivity.
Qed.

(** ** C35: zero threads *)
Theorem C35_zero_threads_quantize A oaddr in_size din out_size dout scale zp rm thr inm outm r :
  quantize A 0 oaddr in_size din out_size dout scale zp rm thr <> Abort ->
  quantize A 0 oaddr in_size din out_size dout scale zp rm thr <> UB ->
  returns inm outm (quantize A 0 oaddr in_size din out_size dout scale zp rm thr) r -> r = Ok outm.
Proof.
  intros H1 H2 HR.
  assert (HJ : forall d, run_command A 0 oaddr d thr = Ok []) by reflexivity.
  assert (E : quantize A 0 oaddr in_size din out_size dout scale zp rm thr = Ok []).
  { revert H1 H2. unfold quantize. destruct (assert _); cbn [bind]; try congruence. destruct (assert _); cbn [bind]; try congruence.
    destruct (if _ : bool then _ else _); cbn [bind]; try congruence. destruct (assert _); cbn [bind]; try congruence; rewrite HJ; auto. }
  rewrite E in HR. apply returns_jobs in HR. destruct HR as (tr & HI & ->). apply interleave_perm in HI. apply Permutation_nil in HI. subst. reflexivity.
Qed.
Theorem C35_zero_threads_dequantize A oaddr in_size din out_size dout scale zp op inm outm r :
  dequantize A 0 oaddr in_size din out_size dout scale zp op <> Abort ->
  dequantize A 0 oaddr in_size din out_size dout scale zp op <> UB ->
  returns inm outm (dequantize A 0 oaddr in_size din out_size dout scale zp op) r -> r = Ok outm.
Proof.
  intros H1 H2 HR.
  assert (HJ : forall d, run_command A 0 oaddr d f_zero = Ok []) by reflexivity.
  assert (E : dequantize A 0 oaddr in_size din out_size dout scale zp op = Ok []).
  { revert H1 H2. unfold dequantize. destruct (assert _); cbn [bind]; try congruence. destruct (assert _); cbn [bind]; try congruence.
    destruct (packed_numel _ _); cbn [bind]; try congruence. destruct (assert _); cbn [bind]; try congruence; rewrite HJ; auto. }
  rewrite E in HR. apply returns_jobs in HR. destruct HR as (tr & HI & ->). apply interleave_perm in HI. apply Permutation_nil in HI. subst. reflexivity.
Qed.
Theorem C35_zero_threads_fused A oaddr in_size dt out_size dq scale zp rm op thr inm outm r :
  quantize_dequantize_fused A 0 oaddr in_size dt out_size dq scale zp rm op thr <> Abort ->
  returns inm outm (quantize_dequantize_fused A 0 oaddr in_size dt out_size dq scale zp rm op thr) r -> r = Ok outm.
Proof.
  intros H1 HR.
  assert (HJ : forall d, run_command A 0 oaddr d thr = Ok []) by reflexivity.
  assert (E : quantize_dequantize_fused A 0 oaddr in_size dt out_size dq scale zp rm op thr = Ok []).
  { revert H1. unfold quantize_dequantize_fused. unfold assert. destruct (negb _); cbn [bind]; try congruence. destruct (is_quant dq); cbn [bind]; try congruence.
    destruct (_ =? _)%Z; cbn [bind]; try congruence; rewrite HJ; auto. }
  rewrite E in HR. apply returns_jobs in HR. destruct HR as (tr & HI & ->). apply interleave_perm in HI. apply Permutation_nil in HI. subst. reflexivity.
Qed.
