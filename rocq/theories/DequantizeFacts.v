(** DequantizeFacts.v -- accepted dequantize and fused calls, for every thread count and interleaving. *)
From Coq Require Import ZArith List Lia Bool Arith ZifyBool ZifyNat.
From Verif Require Import Base Floats Simd Dtypes Spec QuantKernels DequantKernels ExecFacts QuantFacts QuantKernelFacts
  QuantGenericFacts DequantFacts DequantGenericFacts Context ContextFacts QuantizeFacts.
Import ListNotations.

Ltac Zify.zify_post_hook ::= Z.div_mod_to_equations.

Lemma select_dequant n scale zp din dout rm op thr : is_q din -> is_fp dout ->
  select_kernel (mk_desc CMD_DEQUANT n scale zp din dout rm op thr) = Ok (K_dequant din dout op).
Proof. intros [->|[->| ->]] [->| ->]; destruct op; reflexivity. Qed.
Lemma select_requant n scale zp d dq rm op thr : is_fp d -> is_q dq ->
  select_kernel (mk_desc CMD_QUANT_DEQUANT n scale zp d dq rm op thr) = Ok (K_requant d dq rm op).
Proof. intros [->| ->] [->|[->| ->]]; destruct rm, op; reflexivity. Qed.

Lemma nth_skipn (m : mem) c k : nth k (skipn c m) 0%Z = nth (c + k) m 0%Z.
Proof.
  revert m. induction c as [|c IH]; intros m; [reflexivity|].
  destruct m; simpl; [destruct k; reflexivity|]. apply IH.
Qed.

Lemma code_at_skipn d m c j : is_q d -> code_at d (skipn c m) j = code_at d m (per_byte d * c + j).
Proof.
  intros Hd. unfold code_at. rewrite nth_skipn. destruct Hd as [->|[->| ->]]; cbn [bit_size per_byte].
  - replace ((4 * c + j) * 2 / 8) with (c + j * 2 / 8) by lia. replace ((4 * c + j) * 2 mod 8) with (j * 2 mod 8) by lia. reflexivity.
  - replace ((2 * c + j) * 4 / 8) with (c + j * 4 / 8) by lia. replace ((2 * c + j) * 4 mod 8) with (j * 4 mod 8) by lia. reflexivity.
  - replace ((1 * c + j) * 8 / 8) with (c + j * 8 / 8) by lia. replace ((1 * c + j) * 8 mod 8) with (j * 8 mod 8) by lia. reflexivity.
Qed.

Lemma byteE_shift e (E : nat -> mem) b k : e > 0 -> e * b <= k -> byteE e (fun j => E (b + j)) (k - e * b) = byteE e E k.
Proof.
  intros He Hk. unfold byteE. replace k with ((k - e * b) + b * e) at 3 4 by lia.
  rewrite Nat.mod_add, Nat.div_add by lia. rewrite (Nat.add_comm b). reflexivity.
Qed.

Section D0.
Variables (A : arch) (din dout : dtype) (op : reduce_op) (oaddr : Z) (n nt : nat) (scale : f32) (zp : Z).
Hypothesis Hqd : is_q din.
Hypothesis Hfp : is_fp dout.
Hypothesis Hnt : nt > 0.
Hypothesis Hov : (Z.of_nat n * Z.of_nat nt < 2 ^ 63)%Z.
Hypothesis Hov2 : (Z.of_nat nt < 2 ^ 63)%Z.
Hypothesis Hsz : (Z.of_nat (esize dout) * Z.of_nat n < 2 ^ 61)%Z.
Notation b := (part_bound (per_byte din) n nt).
Let d := mk_desc CMD_DEQUANT (Z.of_nat n) scale zp din dout RM_NEAREST op f_zero.

Definition d_job (t : nat) : list action :=
  if b (S t) <=? b t then []
  else map (shift_action (b t / per_byte din) (esize dout * b t)) (dequant_generic A din dout op (b (S t) - b t) scale zp).

Lemma d_job_entry t : t < nt -> job_entry A oaddr d (Z.of_nat t) (Z.of_nat nt) = Ok (d_job t).
Proof.
  intros Ht. assert (Hpe : per_byte din > 0) by (clear -Hqd; destruct Hqd as [->|[->| ->]]; cbn; lia). unfold job_entry, d_job.
  rewrite (partition_row_ok d n nt t (per_byte din)); auto.
  2:{ unfold d, pack_elems, packed_bits. cbn [d_type d_in d_out]. destruct Hqd as [->|[->| ->]]; reflexivity. }
  cbn [bind]. destruct (Nat.leb_spec (b (S t)) (b t)) as [H|H]; auto.
  unfold d. cbn [d_in d_out d_type].
  pose proof (part_le (per_byte din) n nt Hpe Hnt t) as Hle. unfold esize in Hsz.
  assert (Hdi : byte_off (bit_size dout) (Z.of_nat (b t)) = Z.of_nat (esize dout * b t)).
  { rewrite byte_off_ok by (destruct Hfp as [->| ->]; cbn [bit_size stride] in *; nia).
    f_equal. unfold esize. destruct Hfp as [->| ->]; cbn [bit_size stride]; lia. }
  assert (Hdo : byte_off (bit_size din) (Z.of_nat (b t)) = Z.of_nat (b t / per_byte din)).
  { rewrite byte_off_ok by (destruct Hqd as [->|[->| ->]], Hfp as [->| ->]; cbn [bit_size stride] in *; nia).
    f_equal. destruct Hqd as [->|[->| ->]]; cbn [bit_size per_byte]; lia. }
  rewrite Hdi, Hdo. unfold quantize_dispatch. rewrite select_dequant by auto. cbn [bind call_kernel d_scale d_threshold d_zp].
  rewrite !Nat2Z.id. reflexivity.
Qed.

Lemma d_jobs : sequence (map (fun ti => job_entry A oaddr d (Z.of_nat ti) (Z.of_nat nt)) (seq 0 nt)) = Ok (map d_job (seq 0 nt)).
Proof. apply sequence_ok. intros t Ht. apply in_seq in Ht. apply d_job_entry. lia. Qed.
End D0.

Lemma u2_last_byte n t nt c : t < nt -> n > 0 -> part_bound 4 n nt t = 4 * c -> part_bound 4 n nt t < part_bound 4 n nt (S t) ->
  c + (part_bound 4 n nt (S t) - part_bound 4 n nt t) / 4 <= n / 4.
Proof.
  intros Ht Hn Hc Hlt. pose proof (part_le 4 n nt ltac:(lia) ltac:(lia) (S t) ltac:(lia)) as Hle. lia.
Qed.

Section D.
Variables (A : arch) (din dout : dtype) (op : reduce_op) (n nt : nat) (scale : f32) (zp : Z).
Variables (inm outm : mem) (E : nat -> mem).
Hypothesis Hqd : is_q din.
Hypothesis Hfp : is_fp dout.
Hypothesis Hnt : nt > 0.
Notation b := (part_bound (per_byte din) n nt).
Notation code i := (code_at din inm i).
Notation e := (esize dout).
Notation old i := (slice (e * i) e outm).
Hypothesis Hbytes : Forall is_byte inm.
Hypothesis Hin : bytes_for din n <= length inm.
Hypothesis Hextra : din = DT_UINT2 -> dout = DT_F32 -> n > 0 -> n / 4 < length inm.
Hypothesis Hout : e * n <= length outm.
Hypothesis HE : forall i, i < n -> length (E i) = e.
(** element [i], owned by thread [t], at offset [i - b t] of the kernel call *)
Hypothesis HEv : forall t i, t < nt -> b t <= i < b (S t) -> i - b t < vec_end (dq_block A din dout) (b (S t) - b t) ->
  E i = dq_el_vec A din dout op scale zp (code i) (old i).
Hypothesis HEs : forall t i, t < nt -> b t <= i < b (S t) -> vec_end (dq_block A din dout) (b (S t) - b t) <= i - b t ->
  step_put (dq_scalar din dout scale zp) (put dout (dq_op din dout op n i)) (code i) (old i) = Ok (E i).

Lemma d_job_ok t : t < nt ->
  tiles (e * b t) (e * b (S t)) (d_job A din dout op n nt scale zp t) /\
  Forall (act_ok inm outm (byteE e E)) (d_job A din dout op n nt scale zp t).
Proof.
  intros Ht. assert (Hpe : per_byte din > 0) by (clear -Hqd; destruct Hqd as [->|[->| ->]]; cbn; lia). unfold d_job.
  pose proof (part_mono _ n nt Hpe Hnt t Ht) as Hm.
  pose proof (part_le _ n nt Hpe Hnt (S t) Ht) as Hle1.
  destruct (part_aligned _ n nt Hpe Hnt t Ht) as [c Hc].
  destruct (Nat.leb_spec (b (S t)) (b t)) as [H|H].
  { replace (b (S t)) with (b t) by lia. split; constructor. }
  assert (Hbd : b t / per_byte din = c) by (rewrite Hc, (Nat.mul_comm _ c), Nat.div_mul by lia; reflexivity).
  rewrite Hbd.
  assert (Hcase : S t = nt /\ b (S t) = n \/ exists c', b (S t) = per_byte din * c').
  { destruct (Nat.eq_dec (S t) nt) as [E1|E1]; [left; split; auto; rewrite E1; apply part_last|right].
    apply part_aligned; lia. }
  assert (He : e > 0) by (clear -Hfp; destruct Hfp as [->| ->]; cbn; lia).
  destruct (dequant_generic_ok A din dout op (b (S t) - b t) scale zp (skipn c inm) (skipn (e * b t) outm) (fun j => E (b t + j))) as [T F]; auto.
  - apply skipn_is_byte; auto.
  - rewrite skipn_length. rewrite bytes_for_per_byte in * by auto. 
    assert (bytes_for din (b (S t)) <= bytes_for din n) as Hb by (rewrite !bytes_for_per_byte by auto; apply Nat.div_le_mono; lia).
    rewrite !bytes_for_per_byte in Hb by auto.
    replace (b (S t)) with (c * per_byte din + (b (S t) - b t)) in Hb by lia.
    rewrite <- Nat.add_assoc, Nat.div_add_l in Hb by lia. lia.
  - intros E1 E2. assert (n > 0) by lia. specialize (Hextra E1 E2 ltac:(lia)). rewrite skipn_length.
    rewrite E1 in *. cbn [per_byte] in *.
    pose proof (u2_last_byte n t nt c Ht ltac:(lia) Hc H). lia.
  - rewrite skipn_length. nia.
  - intros i Hi. apply HE. lia.
  - intros i Hi1 Hi2. rewrite code_at_skipn, slice_skipn by auto. rewrite <- Hc, <- Nat.mul_add_distr_l.
    apply (HEv t); auto; lia.
  - intros i Hi. rewrite code_at_skipn, slice_skipn by auto. rewrite <- Hc, <- Nat.mul_add_distr_l.
    rewrite <- (HEs t (b t + i)); auto; try lia.
    f_equal. f_equal. unfold dq_op. destruct Hqd as [->|[->| ->]], Hfp as [->| ->]; auto. cbn [per_byte] in *.
    destruct (Nat.ltb_spec i (4 * ((part_bound 4 n nt (S t) - part_bound 4 n nt t) / 4))) as [L1|L1],
      (Nat.ltb_spec (part_bound 4 n nt t + i) (4 * (n / 4))) as [L2|L2]; auto; exfalso; clear - L1 L2 Hcase Hc Hle1 Hi; destruct Hcase as [[_ Hcase]|[c2 Hcase]]; lia.
  - split.
    + replace (e * b (S t)) with (e * b t + e * (b (S t) - b t)) by nia. rewrite <- (Nat.add_0_r (e * b t)) at 1. apply tiles_shift. auto.
    + rewrite Forall_map. rewrite Forall_forall in *. intros a Ha.
      pose proof (tiles_range _ _ _ _ T Ha) as [R1 R2].
      eapply act_ok_ext; [|apply act_ok_shift; [| |apply F; auto]].
      * cbn [shift_action a_ooff a_olen]. intros k Hk. apply byteE_shift; lia.
      * rewrite bytes_for_per_byte in Hin by auto. pose proof (part_le _ n nt Hpe Hnt t).
        assert (c <= (n + (per_byte din - 1)) / per_byte din); [|lia].
        apply Nat.div_le_lower_bound; lia.
      * pose proof (part_le _ n nt Hpe Hnt t). nia.
Qed.

Lemma d_jobs_tile : tiles 0 (e * n) (concat (map (d_job A din dout op n nt scale zp) (seq 0 nt))).
Proof.
  assert (Hpe : per_byte din > 0) by (clear -Hqd; destruct Hqd as [->|[->| ->]]; cbn; lia).
  pose proof (jobs_tile b (fun i => e * i) (d_job A din dout op n nt scale zp) nt (fun t Ht => proj1 (d_job_ok t Ht)) nt (le_n _)) as H.
  cbn beta in H. rewrite part_0, part_last, Nat.mul_0_r in H by auto. exact H.
Qed.
Lemma d_jobs_ok : Forall (act_ok inm outm (byteE e E)) (concat (map (d_job A din dout op n nt scale zp) (seq 0 nt))).
Proof. apply jobs_Forall. intros t Ht. apply d_job_ok; auto. Qed.

Theorem d_run tr : interleave (map (d_job A din dout op n nt scale zp) (seq 0 nt)) tr ->
  run_trace inm tr outm = Ok (map (byteE e E) (seq 0 (e * n)) ++ skipn (e * n) outm).
Proof. intros H. eapply interleave_run; eauto using d_jobs_tile, d_jobs_ok. Qed.
End D.

(** ** Fused *)
Section F0.
Variables (A : arch) (dt dq : dtype) (rm : round_mode_t) (op : reduce_op) (oaddr : Z) (n nt : nat) (scale thr : f32) (zp : Z).
Hypothesis Hqd : is_q dq.
Hypothesis Hfp : is_fp dt.
Hypothesis Hnt : nt > 0.
Hypothesis Hov : (Z.of_nat n * Z.of_nat nt < 2 ^ 63)%Z.
Hypothesis Hov2 : (Z.of_nat nt < 2 ^ 63)%Z.
Hypothesis Hsz : (Z.of_nat (esize dt) * Z.of_nat n < 2 ^ 61)%Z.
Notation b := (part_bound 1 n nt).
Let d := mk_desc CMD_QUANT_DEQUANT (Z.of_nat n) scale zp dt dq rm op thr.

Definition f_job (t : nat) : list action :=
  if b (S t) <=? b t then []
  else map (shift_action (esize dt * b t) (esize dt * b t)) (requant_generic dt dq rm op (b (S t) - b t) scale thr zp).

Lemma f_job_entry t : t < nt -> job_entry A oaddr d (Z.of_nat t) (Z.of_nat nt) = Ok (f_job t).
Proof.
  intros Ht. unfold job_entry, f_job.
  rewrite (partition_row_ok d n nt t 1); auto.
  2:{ unfold d, pack_elems, packed_bits. cbn [d_type d_in d_out]. destruct Hqd as [->|[->| ->]], Hfp as [->| ->]; reflexivity. }
  cbn [bind]. destruct (Nat.leb_spec (b (S t)) (b t)) as [H|H]; auto.
  unfold d. cbn [d_in d_out d_type].
  pose proof (part_le 1 n nt ltac:(lia) Hnt t) as Hle. unfold esize in Hsz.
  assert (Hdi : byte_off (bit_size dt) (Z.of_nat (b t)) = Z.of_nat (esize dt * b t)).
  { rewrite byte_off_ok by (destruct Hfp as [->| ->]; cbn [bit_size stride] in *; nia).
    f_equal. unfold esize. destruct Hfp as [->| ->]; cbn [bit_size stride]; lia. }
  rewrite Hdi. unfold quantize_dispatch. rewrite select_requant by auto. cbn [bind call_kernel d_scale d_threshold d_zp].
  rewrite !Nat2Z.id. reflexivity.
Qed.

Lemma f_jobs : sequence (map (fun ti => job_entry A oaddr d (Z.of_nat ti) (Z.of_nat nt)) (seq 0 nt)) = Ok (map f_job (seq 0 nt)).
Proof. apply sequence_ok. intros t Ht. apply in_seq in Ht. apply f_job_entry. lia. Qed.
End F0.

Section F.
Variables (dt dq : dtype) (rm : round_mode_t) (op : reduce_op) (n nt : nat) (scale thr : f32) (zp : Z).
Variables (inm outm : mem) (E : nat -> mem).
Hypothesis Hfp : is_fp dt.
Hypothesis Hnt : nt > 0.
Notation b := (part_bound 1 n nt).
Notation e := (esize dt).
Hypothesis Hin : e * n <= length inm.
Hypothesis Hout : e * n <= length outm.
Hypothesis HL : forall i, i < n -> length (E i) = e.
Hypothesis HE : forall i, i < n -> requant_elem dt dq rm op scale thr zp (slice (e * i) e inm) (slice (e * i) e outm) = Ok (E i).

Lemma f_job_ok t : t < nt ->
  tiles (e * b t) (e * b (S t)) (f_job dt dq rm op n nt scale thr zp t) /\
  Forall (act_ok inm outm (byteE e E)) (f_job dt dq rm op n nt scale thr zp t).
Proof.
  intros Ht. assert (Hpe : 1 > 0) by lia. unfold f_job.
  pose proof (part_mono _ n nt Hpe Hnt t Ht) as Hm.
  pose proof (part_le _ n nt Hpe Hnt (S t) Ht) as Hle1.
  destruct (Nat.leb_spec (b (S t)) (b t)) as [H|H].
  { replace (b (S t)) with (b t) by lia. split; constructor. }
  assert (He : e > 0) by (clear -Hfp; destruct Hfp as [->| ->]; cbn; lia).
  destruct (requant_generic_ok dt dq rm op (b (S t) - b t) scale thr zp (skipn (e * b t) inm) (skipn (e * b t) outm) (fun j => E (b t + j))) as [T F]; auto.
  - rewrite skipn_length. nia.
  - rewrite skipn_length. nia.
  - intros i Hi. apply HL. lia.
  - intros i Hi. rewrite !slice_skipn, <- !Nat.mul_add_distr_l. apply HE. lia.
  - split.
    + replace (e * b (S t)) with (e * b t + e * (b (S t) - b t)) by nia. rewrite <- (Nat.add_0_r (e * b t)) at 1. apply tiles_shift. auto.
    + rewrite Forall_map. rewrite Forall_forall in *. intros a Ha.
      pose proof (tiles_range _ _ _ _ T Ha) as [R1 R2].
      eapply act_ok_ext; [|apply act_ok_shift; [| |apply F; auto]].
      * cbn [shift_action a_ooff a_olen]. intros k Hk. apply byteE_shift; lia.
      * pose proof (part_le _ n nt Hpe Hnt t). nia.
      * pose proof (part_le _ n nt Hpe Hnt t). nia.
Qed.

Lemma f_jobs_tile : tiles 0 (e * n) (concat (map (f_job dt dq rm op n nt scale thr zp) (seq 0 nt))).
Proof.
  pose proof (jobs_tile b (fun i => e * i) (f_job dt dq rm op n nt scale thr zp) nt (fun t Ht => proj1 (f_job_ok t Ht)) nt (le_n _)) as H.
  cbn beta in H. rewrite part_0, part_last, Nat.mul_0_r in H by lia. exact H.
Qed.
Lemma f_jobs_ok : Forall (act_ok inm outm (byteE e E)) (concat (map (f_job dt dq rm op n nt scale thr zp) (seq 0 nt))).
Proof. apply jobs_Forall. intros t Ht. apply f_job_ok; auto. Qed.

Theorem f_run tr : interleave (map (f_job dt dq rm op n nt scale thr zp) (seq 0 nt)) tr ->
  run_trace inm tr outm = Ok (map (byteE e E) (seq 0 (e * n)) ++ skipn (e * n) outm).
Proof. intros H. eapply interleave_run; eauto using f_jobs_tile, f_jobs_ok. Qed.
End F.
