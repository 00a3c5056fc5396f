(** QuantizeFacts.v -- an accepted quantize call, for every thread count and interleaving. *)
From Coq Require Import ZArith List Lia Bool Arith ZifyBool ZifyNat.
From Verif Require Import Base Floats Simd Dtypes Spec QuantKernels DequantKernels ExecFacts QuantFacts QuantKernelFacts
  QuantGenericFacts DequantFacts DequantGenericFacts Context ContextFacts.
Import ListNotations.

Ltac Zify.zify_post_hook ::= Z.div_mod_to_equations.

Lemma skipn_is_byte k m : Forall is_byte m -> Forall is_byte (skipn k m).
Proof. intros H. rewrite <- (firstn_skipn k m) in H. apply Forall_app in H. tauto. Qed.

Lemma elem_at_skipn d m b j : is_fp d -> elem_at d (skipn (esize d * b) m) j = elem_at d m (b + j).
Proof.
  intros [->| ->]; unfold elem_at, f32_at, bf16_at, esize; cbn [stride]; rewrite slice_skipn;
    rewrite <- Nat.mul_add_distr_l; reflexivity.
Qed.


Lemma per_byte_q d : is_q d -> (per_byte d = 4 /\ bit_size d = 2) \/ (per_byte d = 2 /\ bit_size d = 4) \/ (per_byte d = 1 /\ bit_size d = 8).
Proof. intros [->|[->| ->]]; cbn; auto. Qed.

Lemma bytes_for_per_byte d n : is_q d -> bytes_for d n = (n + (per_byte d - 1)) / per_byte d.
Proof. intros [->|[->| ->]]; unfold bytes_for; cbn [bit_size per_byte]; lia. Qed.

(** per-byte view of packed codes under a shift by whole bytes *)
Lemma byte_of_shift d (C : nat -> Z) n m c k :
  is_q d -> per_byte d * c + m <= n -> (per_byte d * c + m = n \/ exists q, m = per_byte d * q) ->
  k < bytes_for d m ->
  byte_of d (cut m (fun j => C (per_byte d * c + j))) k = byte_of d (cut n C) (c + k).
Proof.
  intros Hd Hle Hcase Hk. rewrite bytes_for_per_byte in Hk by auto.
  assert (G : forall r, r < per_byte d -> cut m (fun j => C (per_byte d * c + j)) (per_byte d * k + r) = cut n C (per_byte d * (c + k) + r)).
  { intros r Hr. unfold cut. replace (per_byte d * c + (per_byte d * k + r)) with (per_byte d * (c + k) + r) by lia.
    destruct (Nat.ltb_spec (per_byte d * k + r) m) as [H|H], (Nat.ltb_spec (per_byte d * (c + k) + r) n) as [H'|H']; auto; exfalso.
    - lia.
    - destruct Hcase as [Hc|[q Hc]]; [lia|]. 
      assert (k < q). { subst m. destruct (per_byte_q d Hd) as [[E _]|[[E _]|[E _]]]; rewrite E in *; lia. }
      nia. }
  set (F := cut m (fun j => C (per_byte d * c + j))) in *. set (H := cut n C) in *. clearbody F H.
  destruct Hd as [->|[->| ->]]; cbn [byte_of per_byte] in *.
  - pose proof (G 0 ltac:(lia)) as G0. rewrite !Nat.add_0_r in G0. rewrite G0, !G by lia. reflexivity.
  - pose proof (G 0 ltac:(lia)) as G0. rewrite !Nat.add_0_r in G0. rewrite G0, !G by lia. reflexivity.
  - pose proof (G 0 ltac:(lia)) as G0. replace (1 * k + 0) with k in G0 by lia. replace (1 * (c + k) + 0) with (c + k) in G0 by lia. exact G0.
Qed.

Lemma select_quant n scale zp din dout rm op thr : is_fp din -> is_q dout ->
  select_kernel (mk_desc CMD_QUANT n scale zp din dout rm op thr) = Ok (K_quant din dout rm).
Proof. intros [->| ->] [->|[->| ->]]; destruct rm; reflexivity. Qed.

Lemma byte_off_ok bits o : (Z.of_nat bits * Z.of_nat o < 2 ^ 64)%Z -> byte_off bits (Z.of_nat o) = Z.of_nat (bits * o / 8).
Proof.
  intros H. unfold byte_off, wrap_u64. rewrite <- Nat2Z.inj_mul in *. rewrite Z.mod_small by lia. rewrite Nat2Z.inj_div. reflexivity.
Qed.

Section Q0.
Variables (A : arch) (din dout : dtype) (rm : round_mode_t) (oaddr : Z) (n nt : nat) (scale thr : f32) (zp : Z).
Hypothesis Hfp : is_fp din.
Hypothesis Hqd : is_q dout.
Hypothesis Hnt : nt > 0.
Hypothesis Hov : (Z.of_nat n * Z.of_nat nt < 2 ^ 63)%Z.
Hypothesis Hov2 : (Z.of_nat nt < 2 ^ 63)%Z.
Hypothesis Hsz : (Z.of_nat (esize din) * Z.of_nat n < 2 ^ 61)%Z.
Let pe := per_byte dout.
Notation b := (part_bound pe n nt).
Let d := mk_desc CMD_QUANT (Z.of_nat n) scale zp din dout rm RO_SET thr.

Definition q_job (t : nat) : list action :=
  if b (S t) <=? b t then []
  else map (shift_action (esize din * b t) (b t / pe))
         (quant_generic A din dout rm (oaddr + Z.of_nat (b t / pe)) (b (S t) - b t) scale thr zp).

Lemma pe_pos : pe > 0.
Proof. unfold pe. destruct Hqd as [->|[->| ->]]; cbn; lia. Qed.

Lemma q_job_entry t : t < nt -> job_entry A oaddr d (Z.of_nat t) (Z.of_nat nt) = Ok (q_job t).
Proof.
  intros Ht. pose proof pe_pos as Hpe. unfold job_entry, q_job.
  rewrite (partition_row_ok d n nt t pe); auto.
  2:{ unfold pe, d, pack_elems, packed_bits. cbn [d_type d_in d_out]. destruct Hqd as [->|[->| ->]]; reflexivity. }
  cbn [bind]. destruct (Nat.leb_spec (b (S t)) (b t)) as [H|H]; auto.
  unfold d. cbn [d_in d_out d_type].
  pose proof (part_le pe n nt Hpe Hnt t) as Hle. unfold esize in Hsz.
  assert (Hdi : byte_off (bit_size din) (Z.of_nat (b t)) = Z.of_nat (esize din * b t)).
  { rewrite byte_off_ok by (destruct Hfp as [->| ->]; cbn [bit_size stride] in *; nia).
    f_equal. unfold esize. destruct Hfp as [->| ->]; cbn [bit_size stride]; lia. }
  assert (Hdo : byte_off (bit_size dout) (Z.of_nat (b t)) = Z.of_nat (b t / pe)).
  { rewrite byte_off_ok by (destruct Hqd as [->|[->| ->]], Hfp as [->| ->]; cbn [bit_size stride] in *; nia).
    f_equal. unfold pe. destruct Hqd as [->|[->| ->]]; cbn [bit_size per_byte]; lia. }
  rewrite Hdi, Hdo. unfold quantize_dispatch. rewrite select_quant by auto. cbn [bind call_kernel d_scale d_threshold d_zp].
  rewrite !Nat2Z.id. reflexivity.
Qed.

Lemma q_jobs : sequence (map (fun ti => job_entry A oaddr d (Z.of_nat ti) (Z.of_nat nt)) (seq 0 nt)) = Ok (map q_job (seq 0 nt)).
Proof. apply sequence_ok. intros t Ht. apply in_seq in Ht. apply q_job_entry. lia. Qed.

End Q0.

Section Q.
Variables (A : arch) (din dout : dtype) (rm : round_mode_t) (oaddr : Z) (n nt : nat) (scale thr : f32) (zp : Z).
Variables (inm outm : mem) (C : nat -> Z).
Let inv := fdiv f_one scale.
Hypothesis Hfp : is_fp din.
Hypothesis Hqd : is_q dout.
Hypothesis Hbytes : Forall is_byte inm.
Hypothesis Hin : esize din * n <= length inm.
Hypothesis Hout : bytes_for dout n <= length outm.
Let pe := per_byte dout.
Notation b := (part_bound pe n nt).
Hypothesis Hq : forall t i, t < nt -> b t <= i < b (S t) ->
  q_vec A din dout rm (oaddr + Z.of_nat (b t / pe)) (b (S t) - b t) (i - b t) = false ->
  q_scalar din dout rm thr inv zp (elem_at din inm i) = Ok (C i).
Hypothesis Hz : forall t i, t < nt -> b t <= i < b (S t) ->
  q_vec A din dout rm (oaddr + Z.of_nat (b t / pe)) (b (S t) - b t) (i - b t) = false ->
  exists z, q_scalar din dout rm thr inv zp f_zero = Ok z.
Hypothesis Hv : forall t i, t < nt -> b t <= i < b (S t) ->
  q_vec A din dout rm (oaddr + Z.of_nat (b t / pe)) (b (S t) - b t) (i - b t) = true ->
  lane A (code_max dout) inv (wrap32 zp) (elem_at din inm i) = C i.
Hypothesis Hnt : nt > 0.
Notation q_job := (q_job A din dout rm oaddr n nt scale thr zp).

Lemma q_job_ok t : t < nt ->
  tiles (bytes_for dout (b t)) (bytes_for dout (b (S t))) (q_job t) /\
  Forall (act_ok inm outm (byte_of dout (cut n C))) (q_job t).
Proof.
  intros Ht. assert (Hpe : pe > 0) by (unfold pe; clear - Hqd; destruct Hqd as [->|[->| ->]]; cbn; lia). unfold q_job; fold pe.
  pose proof (part_mono pe n nt Hpe Hnt t Ht) as Hm.
  pose proof (part_le pe n nt Hpe Hnt (S t) Ht) as Hle1.
  destruct (part_aligned pe n nt Hpe Hnt t Ht) as [c Hc].
  destruct (Nat.leb_spec (b (S t)) (b t)) as [H|H].
  { replace (b (S t)) with (b t) by lia. split; constructor. }
  assert (Hbd : b t / pe = c) by (rewrite Hc, Nat.mul_comm, Nat.div_mul; lia).
  rewrite Hbd. set (m := b (S t) - b t) in *.
  assert (Hcase : b t + m = n \/ exists q, m = pe * q).
  { destruct (Nat.eq_dec (S t) nt) as [E|E].
    - left. unfold m. rewrite E. rewrite part_last. rewrite E, part_last in H. lia.
    - right. destruct (part_aligned pe n nt Hpe Hnt (S t)) as [c' Hc']; [lia|]. exists (c' - c). unfold m. rewrite Hc, Hc'. nia. }
  assert (Hpos : bytes_for dout (b t) = c).
  { rewrite bytes_for_per_byte by auto. fold pe. rewrite Hc. clear -Hpe. rewrite Nat.mul_comm, Nat.div_add_l by lia.
    rewrite Nat.div_small by lia. lia. }
  assert (Hpos' : bytes_for dout (b (S t)) = c + bytes_for dout m).
  { rewrite !bytes_for_per_byte by auto. fold pe. replace (b (S t)) with (c * pe + m) by (unfold m; lia).
    rewrite <- Nat.add_assoc, Nat.div_add_l by lia. reflexivity. }
  assert (Hmono : bytes_for dout (b (S t)) <= bytes_for dout n).
  { rewrite !bytes_for_per_byte by auto. apply Nat.div_le_mono; fold pe; lia. }
  destruct (quant_generic_ok A din dout rm (oaddr + Z.of_nat c) m scale thr zp
     (skipn (esize din * b t) inm) (skipn c outm) (fun j => C (b t + j))) as [T F]; auto.
  - apply skipn_is_byte; auto.
  - rewrite skipn_length. unfold m in *. nia.
  - rewrite skipn_length. lia.
  - intros i Hi HV. rewrite elem_at_skipn by auto. apply (Hq t); auto; [unfold m in *; lia|].
    rewrite Hbd. fold m. replace (b t + i - b t) with i by lia. exact HV.
  - intros i Hi HV. apply (Hz t (b t + i)); auto; [unfold m in *; lia|].
    rewrite Hbd. fold m. replace (b t + i - b t) with i by lia. exact HV.
  - intros i Hi HV. rewrite elem_at_skipn by auto. apply (Hv t); auto; [unfold m in *; lia|].
    rewrite Hbd. fold m. replace (b t + i - b t) with i by lia. exact HV.
  - split.
    + rewrite Hpos, Hpos'. rewrite <- (Nat.add_0_r c) at 1. apply tiles_shift. auto.
    + rewrite Forall_map. rewrite Forall_forall in *. intros a Ha.
      pose proof (tiles_range _ _ _ _ T Ha) as [R1 R2].
      eapply act_ok_ext; [|apply act_ok_shift; [| |apply F; auto]].
      * cbn [shift_action a_ooff a_olen]. intros k Hk.
        assert (Ec : b t = pe * c) by auto. rewrite Ec. unfold pe.
        rewrite (byte_of_shift dout C n m c (k - c)); auto; try lia.
        { f_equal. lia. }
        { fold pe. rewrite <- Ec. auto. }
      * pose proof (part_le pe n nt Hpe Hnt t). nia.
      * lia.
Qed.

Lemma q_jobs_tile : tiles 0 (bytes_for dout n) (concat (map q_job (seq 0 nt))).
Proof.
  assert (Hpe : pe > 0) by (unfold pe; clear - Hqd; destruct Hqd as [->|[->| ->]]; cbn; lia).
  assert (E0 : bytes_for dout 0 = 0) by (destruct Hqd as [->|[->| ->]]; reflexivity).
  pose proof (jobs_tile b (bytes_for dout) q_job nt (fun t Ht => proj1 (q_job_ok t Ht)) nt (le_n _)) as H.
  rewrite part_0, part_last, E0 in H by auto. exact H.
Qed.

Lemma q_jobs_ok : Forall (act_ok inm outm (byte_of dout (cut n C))) (concat (map q_job (seq 0 nt))).
Proof. apply jobs_Forall. intros t Ht. apply q_job_ok; auto. Qed.

Theorem q_run tr : interleave (map q_job (seq 0 nt)) tr ->
  run_trace inm tr outm = Ok (map (byte_of dout (cut n C)) (seq 0 (bytes_for dout n)) ++ skipn (bytes_for dout n) outm).
Proof. intros H. eapply interleave_run; eauto using q_jobs_tile, q_jobs_ok. Qed.
End Q.

(** ** Reading codes back from the packed bytes *)
Lemma u2_unpack (a b c e : Z) : (0 <= a <= 3 -> 0 <= b <= 3 -> 0 <= c <= 3 -> 0 <= e <= 3 ->
  (a + 4 * b + 16 * c + 64 * e) mod 4 = a /\ (a + 4 * b + 16 * c + 64 * e) / 4 mod 4 = b /\
  (a + 4 * b + 16 * c + 64 * e) / 16 mod 4 = c /\ (a + 4 * b + 16 * c + 64 * e) / 64 mod 4 = e)%Z.
Proof. lia. Qed.
Lemma u4_unpack (a b : Z) : (0 <= a <= 15 -> 0 <= b <= 15 ->
  (a + 16 * b) mod 16 = a /\ (a + 16 * b) / 16 mod 16 = b)%Z.
Proof. lia. Qed.

Lemma code_at_byte_of d (C : nat -> Z) n rest i : is_q d -> (forall j, j < n -> (0 <= C j <= code_max d)%Z) ->
  i < per_byte d * bytes_for d n ->
  code_at d (map (byte_of d (cut n C)) (seq 0 (bytes_for d n)) ++ rest) i = cut n C i.
Proof.
  intros Hd HC Hi.
  assert (HC' : forall j, (0 <= cut n C j <= code_max d)%Z).
  { intros j. unfold cut. destruct (Nat.ltb_spec j n); auto. destruct Hd as [->|[->| ->]]; cbn; lia. }
  set (m := map (byte_of d (cut n C)) (seq 0 (bytes_for d n)) ++ rest).
  assert (Hn : forall k, k < bytes_for d n -> nth k m 0%Z = byte_of d (cut n C) k).
  { intros k Hk. unfold m. rewrite app_nth1 by (rewrite map_length, seq_length; auto). apply nth_map_seq. auto. }
  unfold code_at. clearbody m. generalize dependent (bytes_for d n). intros N Hi Hn.
  destruct Hd as [->|[->| ->]]; cbn [bit_size per_byte byte_of] in *.
  - change (code_max DT_UINT2) with 3%Z in *. change (2 ^ Z.of_nat 2)%Z with 4%Z.
    set (k := i * 2 / 8). assert (Hk : k < N) by (unfold k; clear -Hi; lia). rewrite Hn by auto.
    destruct (u2_unpack (cut n C (4 * k)) (cut n C (4 * k + 1)) (cut n C (4 * k + 2)) (cut n C (4 * k + 3))) as (U0 & U1 & U2 & U3); auto.
    assert (Hr : i = 4 * k /\ i * 2 mod 8 = 0 \/ i = 4 * k + 1 /\ i * 2 mod 8 = 2 \/ i = 4 * k + 2 /\ i * 2 mod 8 = 4 \/ i = 4 * k + 3 /\ i * 2 mod 8 = 6) by (unfold k; clear; lia).
    clearbody k. destruct Hr as [[-> ->]|[[-> ->]|[[-> ->]|[-> ->]]]]; auto.
    change (2 ^ Z.of_nat 0)%Z with 1%Z. rewrite Z.div_1_r. auto.
  - change (code_max DT_UINT4) with 15%Z in *. change (2 ^ Z.of_nat 4)%Z with 16%Z.
    set (k := i * 4 / 8). assert (Hk : k < N) by (unfold k; clear -Hi; lia). rewrite Hn by auto.
    destruct (u4_unpack (cut n C (2 * k)) (cut n C (2 * k + 1))) as (U0 & U1); auto.
    assert (Hr : i = 2 * k /\ i * 4 mod 8 = 0 \/ i = 2 * k + 1 /\ i * 4 mod 8 = 4) by (unfold k; clear; lia).
    clearbody k. destruct Hr as [[-> ->]|[-> ->]]; auto.
    change (2 ^ Z.of_nat 0)%Z with 1%Z. rewrite Z.div_1_r. auto.
  - change (code_max DT_UINT8) with 255%Z in *. change (2 ^ Z.of_nat 8)%Z with 256%Z.
    rewrite Nat.div_mul, Nat.mod_mul by lia. rewrite Hn by lia. change (2 ^ Z.of_nat 0)%Z with 1%Z. rewrite Z.div_1_r.
    apply Z.mod_small. pose proof (HC' i). lia.
Qed.
