(** Witnesses35.v -- concrete instances of the theorems of PropsFeedback.v (C75). *)
From Coq Require Import ZArith List Lia Bool Arith ZifyBool ZifyNat Reals Lra.
From Flocq Require Import Core Binary Bits.
From Verif Require Import Base Floats Dtypes Spec ApiSpec ConfigSpec QuantKernels ExecFacts QuantKernelFacts DequantFacts Context Api FloatFacts FloatFacts2 PropsQuantize PropsDequantize PropsRoundTrip RoundTripFacts PropsRoundTripTypes MinMax
  MinMaxFacts ConfigFacts PropsConfig PropsAccumulate PropsReplicas PropsChunks PropsRing PropsFeedback Witnesses5 Witnesses Witnesses10 Witnesses30 Witnesses31.
Import ListNotations.
Open Scope nat_scope.

(** the sender's arithmetic always has a result *)
Lemma tabulate n (g : nat -> f32) : exists m, tensor n m /\ forall i, i < n -> f32_at m i = g i.
Proof.
  induction n as [|n (m & (B & L) & H)]; [exists []; split; [split; [constructor|reflexivity]|intros i Hi; lia]|].
  exists (m ++ le_bytes 4 (bits_of_f32 (g n))). split; [split|].
  - apply Forall_app. split; [exact B|apply FloatFacts2.le_bytes_is_byte].
  - rewrite app_length, le_bytes_length. lia.
  - intros i Hi. unfold f32_at. destruct (Nat.eq_dec i n) as [->|N].
    + pose proof (slice_app_r 0 4 m (le_bytes 4 (bits_of_f32 (g n)))) as X. rewrite Nat.add_0_r, L in X. rewrite X.
      replace (slice 0 4 (le_bytes 4 (bits_of_f32 (g n)))) with (le_bytes 4 (bits_of_f32 (g n))) by reflexivity. apply ld_f32_bytes.
    + rewrite PropsChunks.slice_app_l by lia. apply H. lia.
Qed.
Lemma sends_total t v : exists r, sends t v r.
Proof.
  unfold sends, sends_with. set (p := t_peer t).
  destruct (returns_total v (p_buffer p) (quantize_call (p_arch p) (p_threads p) (p_qaddr p) DT_F32 (p_type p) (p_scale p) (p_zp p) (p_mode p) (p_thr p) v (p_buffer p))) as [q Hq].
  destruct q as [c| |].
  - destruct (returns_total (c ++ p_extra p) (t_out t) (dequantize_call (p_rarch p) (p_rthreads p) (p_oaddr p) (p_type p) DT_F32 (p_scale p) (p_zp p) RO_SET (length c) (t_out t))) as [r Hr].
    exists r, (Ok c). auto.
  - exists Abort, Abort. auto.
  - exists UB, UB. auto.
Qed.
(** exchanges exist for every list of rounds *)
Lemma exchange_exists n ts : forall e, exists ys r, exchange n sends ts e ys r.
Proof.
  induction ts as [|t ts IH]; intros e; [exists [], (Ok e); constructor|].
  destruct (tabulate n (fun i => fadd (f32_at (t_data t) i) (f32_at e i))) as (v & Tv & Hv). destruct (sends_total t v) as [r Hr]. destruct r as [y| |].
  - destruct (tabulate n (fun i => fsub (f32_at v i) (f32_at y i))) as (e' & Te & He). destruct (IH e') as (ys & r & HX). exists (y :: ys), r.
    apply (ex_next n sends t ts e v y e' ys r); auto; split; auto.
  - exists [], Abort. apply (ex_stop n sends t ts e v Abort); [split; auto|exact Hr|discriminate].
  - exists [], UB. apply (ex_stop n sends t ts e v UB); [split; auto|exact Hr|discriminate].
Qed.

(** {0, 5/4, -3} sent again and again as uint4 with scale 1/2 and zero point 8: the total received never leaves the total sent by more than 3/10
    (and two millionths per round) *)
Definition steady A nt : round :=
  {| t_peer := {| p_data_type := DT_F32; p_data := part; p_arch := A; p_threads := nt; p_qaddr := 0; p_type := DT_UINT4; p_scale := f_half; p_zp := 8; p_mode := RM_NEAREST; p_thr := thr4;
                  p_buffer := repeat 0xaa%Z (bytes_for DT_UINT4 3); p_extra := [0%Z]; p_rarch := A; p_rthreads := nt + 1; p_oaddr := 0 |}; t_out := part |}.
Lemma part_tensor : tensor 3 part.
Proof. destruct part_ok as (B & L & _). split; [exact B|exact L]. Qed.
Lemma steady_ok A nt : 1 <= nt <= 900 -> round_ok 3 (steady A nt).
Proof.
  intros Hn. unfold round_ok, steady, t_data. cbn [t_peer t_out p_data p_type p_buffer p_threads p_rthreads p_extra p_mode p_thr].
  split; [exact part_ok|]. split; [exact part_tensor|]. split; [right; left; reflexivity|]. split; [apply repeat_length|]. split; [unfold sizes_ok; lia|]. split; [unfold sizes_ok; lia|].
  split; [repeat constructor; unfold is_byte; lia|]. split; [discriminate|discriminate].
Qed.
Definition nothing : mem := repeat 0%Z 12.
Lemma nothing_ok : finite_data DT_F32 nothing 3 /\ forall i, i < 3 -> elem nothing i = 0%R.
Proof.
  assert (E : forall i, i < 3 -> f32_at nothing i = f_zero).
  { intros i Hi. destruct i as [|[|[|i]]]; try lia; reflexivity. }
  split; [split; [unfold nothing; apply Forall_is_byte_b; vm_compute; reflexivity|split; [reflexivity|]]|].
  - intros i Hi. change (elem_at DT_F32 nothing i) with (f32_at nothing i). rewrite E by auto. apply f_zero_ok.
  - intros i Hi. unfold elem. rewrite E by auto. apply f_zero_ok.
Qed.
Lemma rsum_repeat {X} (f : X -> R) x k : rsum f (repeat x k) = (INR k * f x)%R.
Proof. induction k as [|k IH]; [unfold rsum; cbn; ring|]. cbn [repeat]. rewrite rsum_cons, IH, S_INR. ring. Qed.
Example C75_planned_witness A nt k : 1 <= nt <= 900 -> exists ys e, exchange 3 sends (repeat (steady A nt) k) nothing ys (Ok e) /\ length ys = k /\
  forall i, i < 3 -> (Rabs (received ys i - INR k * sval i) <= 3 / 10 + INR k * (2 / 1000000))%R.
Proof.
  intros Hn. destruct half_ok as [_ V]. destruct nothing_ok as [F0 Z0]. destruct (exchange_exists 3 (repeat (steady A nt) k) nothing) as (ys & r & HX).
  assert (AL : forall P : round -> Prop, P (steady A nt) -> Forall P (repeat (steady A nt) k)).
  { intros P HP. apply Forall_forall. intros x Hx. apply repeat_spec in Hx. subst. exact HP. }
  destruct (C75_planned_feedback 3 (repeat (steady A nt) k) nothing ys r 3 (26 / 100)) as (e & -> & HL & HR); auto; try lra.
  - apply AL, steady_ok. exact Hn.
  - apply Rle_trans with (bpow radix2 2); [change (bpow radix2 2) with 4%R; lra|apply bpow_le; lia].
  - apply AL. cbv zeta. unfold steady, t_data, code_part. cbn [t_peer p_data p_type p_scale p_zp p_mode]. rewrite V. change (code_max DT_UINT4) with 15%Z. change (0 - 8)%Z with (-8)%Z. change (15 - 8)%Z with 7%Z.
    split; [exact half_normal|]. split; [lra|]. split; [lia|]. split; [lra|]. split; [exact part_abs|]. unfold u_f32. split; lra.
  - intros i Hi. rewrite Z0, Rabs_R0 by auto. lra.
  - exists ys, e. split; [exact HX|]. rewrite repeat_length in *. split; [exact HL|]. intros i Hi. destruct (HR i Hi) as (_ & _ & HE). rewrite Z0, Rabs_R0 in HE by auto.
    unfold sent in HE. rewrite rsum_repeat in HE. change (elem (t_data (steady A nt)) i) with (at_ part i) in HE. rewrite part_at in HE by auto.
    pose proof (pos_INR k). unfold u_f32 in HE. lra.
Qed.

(** two rounds with computed parameters (uint8, nearest): rate c = 1/200 *)
Lemma computed_sends_exists n t v i j : quant_type (p_type (t_peer t)) -> finite_data DT_F32 v n -> i < n -> j < n -> (elem v i <= -1)%R -> (1 <= elem v j)%R ->
  (forall k, k < n -> (Rabs (elem v k) <= bpow radix2 99)%R) -> exists r, computed_sends n t v r.
Proof.
  intros Hq FB Hi Hj Bi Bj BB. destruct (range_exists v n ltac:(lia)) as (lo & hi & HR). pose proof HR as ((il & Hil & El) & (ih & Hih & Eh) & HRg).
  pose proof (HRg i Hi) as R1. pose proof (HRg j Hj) as R2. change (val (elem_at DT_F32 v i)) with (elem v i) in R1. change (val (elem_at DT_F32 v j)) with (elem v j) in R2.
  assert (BC : block_cover n [(0, n)]).
  { split; [intros q [<-|[]]; cbn; lia|]. intros k Hk. exists (0, n). split; [left; reflexivity|]. cbn. lia. }
  assert (LH : (lo < hi)%R) by lra.
  destruct (C21_documented_parameters AVX2 DT_F32 (p_type (t_peer t)) v n [(0, n)] lo hi ltac:(discriminate) (or_introl eq_refl) Hq FB BC HR LH) as (s & E & _).
  assert (W : (bpow radix2 (-112) <= hi - lo <= bpow radix2 100)%R).
  { split; [apply Rle_trans with 1%R; [change 1%R with (bpow radix2 0); apply bpow_le; lia|lra]|].
    pose proof (BB il Hil) as B1. pose proof (BB ih Hih) as B2. change (elem v il = lo) in El. change (elem v ih = hi) in Eh. rewrite El in B1. rewrite Eh in B2.
    apply Rabs_le_inv in B1. apply Rabs_le_inv in B2. change 100%Z with (99 + 1)%Z. rewrite bpow_plus. change (bpow radix2 1) with 2%R. lra. }
  set (z := config_zp (p_type (t_peer t)) lo hi) in *.
  assert (X : exists r, sends_with s z t v r).
  { unfold sends_with. set (p := t_peer t).
    destruct (returns_total v (p_buffer p) (quantize_call (p_arch p) (p_threads p) (p_qaddr p) DT_F32 (p_type p) s z (p_mode p) (p_thr p) v (p_buffer p))) as [q Hq'].
    destruct q as [c| |].
    - destruct (returns_total (c ++ p_extra p) (t_out t) (dequantize_call (p_rarch p) (p_rthreads p) (p_oaddr p) (p_type p) DT_F32 s z RO_SET (length c) (t_out t))) as [r Hr].
      exists r, (Ok c). auto.
    - exists Abort, Abort. auto.
    - exists UB, UB. auto. }
  destruct X as [r HrX]. exists r, AVX2, [(0, n)], lo, hi, s, z. split; [discriminate|]. split; [exact BC|]. split; [exact HR|]. split; [lra|]. split; [exact W|]. split; [exact E|exact HrX].
Qed.
Definition byte_round A nt : round :=
  {| t_peer := {| p_data_type := DT_F32; p_data := part; p_arch := A; p_threads := nt; p_qaddr := 0; p_type := DT_UINT8; p_scale := f_half; p_zp := 0; p_mode := RM_NEAREST; p_thr := thr4;
                  p_buffer := repeat 0xaa%Z (bytes_for DT_UINT8 3); p_extra := [0%Z]; p_rarch := A; p_rthreads := nt + 1; p_oaddr := 0 |}; t_out := part |}.
Lemma byte_round_ok A nt : 1 <= nt <= 900 -> round_ok 3 (byte_round A nt).
Proof.
  intros Hn. unfold round_ok, byte_round, t_data. cbn [t_peer t_out p_data p_type p_buffer p_threads p_rthreads p_extra p_mode p_thr].
  split; [exact part_ok|]. split; [exact part_tensor|]. split; [right; right; reflexivity|]. split; [apply repeat_length|]. split; [unfold sizes_ok; lia|]. split; [unfold sizes_ok; lia|].
  split; [repeat constructor; unfold is_byte; lia|]. split; [discriminate|discriminate].
Qed.
Lemma byte_rate A nt : (round_rate (byte_round A nt) <= / 200)%R.
Proof. unfold round_rate, byte_round. cbn [t_peer p_mode p_type]. change (code_max DT_UINT8) with 255%Z. lra. Qed.
(** any number of rounds: as long as the residual obeys its bound, the next round exists *)
Lemma computed_exchange_exists A nt k : 1 <= nt <= 900 -> forall e, finite_data DT_F32 e 3 -> (forall i, i < 3 -> (Rabs (elem e i) <= 2 / 100)%R) ->
  exists ys r, exchange 3 (computed_sends 3) (repeat (byte_round A nt) k) e ys r.
Proof.
  intros Hn. assert (P3 : (4 <= bpow radix2 99)%R) by (change 4%R with (bpow radix2 2); apply bpow_le; lia). assert (P127 : (bpow radix2 99 <= bpow radix2 127)%R) by (apply bpow_le; lia).
  induction k as [|k IH]; intros e Fe Be; [exists [], (Ok e); constructor|]. cbn [repeat]. set (t := byte_round A nt) in *.
  destruct (tabulate 3 (fun i => fadd (f32_at (t_data t) i) (f32_at e i))) as (v & Tv & Hv).
  assert (SV : sum_of 3 (t_data t) e v) by (split; auto).
  destruct (sum_finite 3 (t_data t) e v 3 (2 / 100) part_ok Fe SV part_abs Be ltac:(lra)) as [Fv Vv].
  assert (AT : forall i, i < 3 -> (Rabs (elem v i - sval i) <= 3 / 100)%R).
  { intros i Hi. destruct (Vv i Hi) as [D _]. specialize (Be i Hi). change (elem (t_data t) i) with (at_ part i) in D. rewrite part_at in D by auto. unfold u_f32 in D.
    apply Rabs_le_inv in D. apply Rabs_le_inv in Be. apply Rabs_le. lra. }
  destruct (computed_sends_exists 3 t v 2 1) as [r Hr]; auto.
  { right; right; reflexivity. }
  { pose proof (AT 2 ltac:(lia)) as X. apply Rabs_le_inv in X. unfold sval in X. cbn in X. lra. }
  { pose proof (AT 1 ltac:(lia)) as X. apply Rabs_le_inv in X. unfold sval in X. cbn in X. lra. }
  { intros j Hj. destruct (Vv j Hj) as [_ D]. unfold u_f32 in D. lra. }
  destruct r as [y| |].
  - destruct (tabulate 3 (fun i => fsub (f32_at v i) (f32_at y i))) as (e' & Te & He).
    assert (SE : difference_of 3 v y e') by (split; auto).
    destruct (computed_accurate 3 t v (Ok y) (302 / 100) (byte_round_ok A nt Hn) Fv) as (y' & EY & HY); auto; try lra.
    { intros i Hi. destruct (Vv i Hi) as [_ D]. lra. }
    injection EY as <-.
    assert (YV : forall i, i < 3 -> finite (f32_at y i) /\ (Rabs (elem y i - elem v i) <= 19 / 1000)%R).
    { intros i Hi. destruct (HY i Hi) as [F D]. split; [exact F|]. pose proof (byte_rate A nt) as RT. fold t in RT. unfold u_f32 in D. pose proof (Rabs_pos (elem y i - elem v i)). lra. }
    destruct (difference_finite 3 v y e' (19 / 1000) Fv YV SE ltac:(lra)) as [Fe' Ve'].
    destruct (IH e' Fe') as (ys & r & HX).
    { intros i Hi. destruct (Ve' i Hi) as [_ D]. unfold u_f32 in D. lra. }
    exists (y :: ys), r. apply (ex_next 3 _ t _ e v y e' ys r); auto.
  - exists [], Abort. apply (ex_stop 3 _ t _ e v Abort); auto. discriminate.
  - exists [], UB. apply (ex_stop 3 _ t _ e v UB); auto. discriminate.
Qed.
Example C75_computed_witness A nt k : 1 <= nt <= 900 -> exists ys e, exchange 3 (computed_sends 3) (repeat (byte_round A nt) k) nothing ys (Ok e) /\ length ys = k /\
  forall i, i < 3 -> (Rabs (received ys i - INR k * sval i) <= 16 / 1000 + INR k * (1 / 1000000))%R.
Proof.
  intros Hn. destruct nothing_ok as [F0 Z0].
  destruct (computed_exchange_exists A nt k Hn nothing F0) as (ys & r & HX).
  { intros i Hi. rewrite Z0, Rabs_R0 by auto. lra. }
  assert (AL : forall P : round -> Prop, P (byte_round A nt) -> Forall P (repeat (byte_round A nt) k)).
  { intros P HP. apply Forall_forall. intros x Hx. apply repeat_spec in Hx. subst. exact HP. }
  destruct (C75_computed_feedback 3 (repeat (byte_round A nt) k) nothing ys r 3 (/ 200)) as (e & -> & HL & HR); auto; try lra.
  - apply AL, byte_round_ok. exact Hn.
  - apply Rle_trans with (bpow radix2 2); [change (bpow radix2 2) with 4%R; lra|apply bpow_le; lia].
  - apply AL. split; [apply byte_rate|exact part_abs].
  - intros i Hi. rewrite Z0, Rabs_R0 by auto. lra.
  - exists ys, e. split; [exact HX|]. rewrite repeat_length in *. split; [exact HL|]. intros i Hi. destruct (HR i Hi) as (_ & _ & HE). rewrite Z0, Rabs_R0 in HE by auto.
    unfold sent in HE. rewrite rsum_repeat in HE. change (elem (t_data (byte_round A nt)) i) with (at_ part i) in HE. rewrite part_at in HE by auto.
    pose proof (pos_INR k). unfold u_f32 in HE. lra.
Qed.

(** seventy halves sent k times without feedback: every total is k/2 too large *)
Definition half_round A nt : round :=
  {| t_peer := {| p_data_type := DT_F32; p_data := halves DT_F32; p_arch := A; p_threads := nt; p_qaddr := 0; p_type := DT_UINT2; p_scale := f_one; p_zp := 0; p_mode := RM_NEAREST; p_thr := thr4;
                  p_buffer := repeat 0xaa%Z (bytes_for DT_UINT2 70); p_extra := [0%Z]; p_rarch := A; p_rthreads := nt; p_oaddr := 0 |}; t_out := halves DT_F32 |}.
Lemma half_round_ok A nt : 1 <= nt <= 900 -> round_ok 70 (half_round A nt).
Proof.
  intros Hn. destruct (halves_facts DT_F32 (or_introl eq_refl)) as (_ & _ & B & HV). unfold round_ok, half_round, t_data. cbn [t_peer t_out p_data p_type p_buffer p_threads p_rthreads p_extra p_mode p_thr].
  split; [split; [exact B|split; [reflexivity|intros i Hi; apply (HV i Hi)]]|]. split; [split; [exact B|reflexivity]|]. split; [left; reflexivity|]. split; [apply repeat_length|].
  split; [unfold sizes_ok; lia|]. split; [unfold sizes_ok; lia|].
  split; [repeat constructor; unfold is_byte; lia|]. split; [discriminate|discriminate].
Qed.
Example C75_without_feedback_witness A nt k : 1 <= nt <= 900 -> exists ys, plain_exchange 70 (repeat (half_round A nt) k) ys /\ forall i, i < 70 -> received ys i = INR k.
Proof.
  intros Hn. destruct (halves_facts DT_F32 (or_introl eq_refl)) as (_ & _ & B & HV). destruct f_one_ok as [F1 V1].
  assert (S1 : exists y, sends (half_round A nt) (halves DT_F32) (Ok y)).
  { destruct (sends_total (half_round A nt) (halves DT_F32)) as [r Hr].
    destruct (sends_accurate 70 (half_round A nt) (halves DT_F32) r f_one 0 (half_round_ok A nt Hn)) as (y & -> & _); [|exact one_normal|rewrite V1; lra| | |exact Hr|exists y; exact Hr].
    - split; [exact B|split; [reflexivity|intros i Hi; apply (HV i Hi)]].
    - cbn [half_round t_peer p_type]. change (code_max DT_UINT2) with 3%Z. lia.
    - intros i Hi. destruct (HV i Hi) as [_ E]. change (val (f32_at (halves DT_F32) i) = (/ 2)%R) in E. unfold elem. rewrite E, V1. cbn [half_round t_peer p_type]. change (code_max DT_UINT2 - 0)%Z with 3%Z. change (0 - 0)%Z with 0%Z. lra. }
  destruct S1 as [y Hy]. exists (repeat y k).
  assert (PX : plain_exchange 70 (repeat (half_round A nt) k) (repeat y k)) by (induction k as [|k IH]; cbn [repeat]; constructor; auto).
  split; [exact PX|]. intros i Hi.
  assert (AL : forall P : round -> Prop, P (half_round A nt) -> Forall P (repeat (half_round A nt) k)).
  { intros P HP. apply Forall_forall. intros x Hx. apply repeat_spec in Hx. subst. exact HP. }
  assert (EH : forall j, j < 70 -> elem (t_data (half_round A nt)) j = (/ 2)%R) by (intros j Hj; destruct (HV j Hj) as [_ E]; exact E).
  pose proof (C75_without_feedback 70 _ _ (AL _ (half_round_ok A nt Hn)) (AL _ (conj eq_refl (conj eq_refl (conj eq_refl EH)))) PX i Hi) as D.
  rewrite repeat_length in D. unfold sent in D. rewrite rsum_repeat, EH in D by auto. lra.
Qed.
