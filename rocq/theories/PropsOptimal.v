(** PropsOptimal.v -- C65: the computed parameters are close to the best that any scheme with the same number of codes can guarantee, if zero is in
    the range of the data; if it is not, they can be arbitrarily far from it. *)
From Coq Require Import ZArith List Lia Bool Reals Lra Psatz Classical.
From Flocq Require Import Core BinarySingleNaN Binary Bits Relative.
From Verif Require Import Base Floats Simd Dtypes Spec ApiSpec QuantKernels DequantKernels ExecFacts FloatFacts QuantFacts QuantKernelFacts
  QuantGenericFacts DequantFacts DequantGenericFacts QuantLanes Context ContextFacts Footprint QuantizeFacts DequantizeFacts Api PropsQuantize Schedule
  PropsMemory FloatFacts2 PropsDequantize PropsRoundTrip PathSpec PropsPaths RoundTripFacts PropsIdempotent MinMax MinMaxFacts ConfigSpec F64Facts ConfigFacts PropsConfig
  PropsRepresent PropsContract PropsChunks.
Import ListNotations.
Open Scope R_scope.

(** ** Specification *)
(** The [n] floats stored in [m] can be given codes of the type [dq], and each code a meaning, so that every float is within [E] of the meaning of its
    code.  Nothing is assumed about how codes and meanings are chosen: they may depend on the whole tensor and need not be equally spaced. *)
Definition coded_within (dq : dtype) (m : mem) (n : nat) (E : R) : Prop :=
  exists (code : nat -> Z) (meaning : Z -> R),
    forall i, (i < n)%nat -> (0 <= code i <= code_max dq)%Z /\ Rabs (meaning (code i) - val (f32_at m i)) <= E.
(** Some scheme guarantees the error [E] for every tensor with the range [lo, hi]. *)
Definition achievable (dq : dtype) (lo hi E : R) : Prop :=
  forall m n, finite_data DT_F32 m n -> data_range DT_F32 m n lo hi -> coded_within dq m n E.

(** ** A tensor of 2^bits + 1 well separated floats *)
Lemma f32_exists r : fmt32 r -> Rabs r < max32 -> exists f : f32, finite f /\ val f = r.
Proof.
  intros F H. pose proof F as F0. apply FLT_format_generic in F; [|reflexivity]. destruct F as [[mm e] E _ _].
  pose proof (binary_normalize_correct 24 128 Hprec32 Hmax32 mode_NE mm e false) as C. cbv zeta in C. rewrite <- E in C.
  change (round radix2 (SpecFloat.fexp 24 128) (round_mode mode_NE) r) with (RN32 r) in C. rewrite RN32_fmt in C by exact F0.
  rewrite Rlt_bool_true in C by exact H. destruct C as (C1 & C2 & _). eexists. split; [exact C2|exact C1].
Qed.
Lemma le_bytes_byte n z : Forall is_byte (le_bytes n z).
Proof. revert z. induction n; intros z; cbn [le_bytes]; constructor; auto. unfold is_byte. apply Z.mod_pos_bound. lia. Qed.
Lemma buffer_of (P : nat -> f32 -> Prop) n : (forall k, (k < n)%nat -> exists f, P k f) ->
  exists m, Forall is_byte m /\ length m = (4 * n)%nat /\ forall k, (k < n)%nat -> P k (f32_at m k).
Proof.
  induction n as [|n IH]; intros H.
  - exists []. split; [constructor|]. split; [reflexivity|]. intros k Hk. lia.
  - destruct IH as (m & B & L & Q); [intros k Hk; apply H; lia|]. destruct (H n) as (f & Pf); [lia|].
    exists (m ++ le_bytes 4 (bits_of_f32 f)). split; [apply Forall_app; split; auto using le_bytes_byte|].
    split; [rewrite app_length, L; change (length (le_bytes 4 (bits_of_f32 f))) with 4%nat; lia|].
    intros k Hk. destruct (Nat.eq_dec k n) as [->|Hn].
    + pose proof (elem_at_app_r DT_F32 m (le_bytes 4 (bits_of_f32 f)) n 0 (or_introl eq_refl) L) as E. rewrite Nat.add_0_r in E.
      change (elem_at DT_F32 (m ++ le_bytes 4 (bits_of_f32 f)) n) with (f32_at (m ++ le_bytes 4 (bits_of_f32 f)) n) in E. rewrite E.
      change (elem_at DT_F32 (le_bytes 4 (bits_of_f32 f)) 0) with (f32_of_bits (le_val (le_bytes 4 (bits_of_f32 f)))).
      rewrite le_val_le_bytes by apply bits_range. rewrite f32_bits_bits. exact Pf.
    + pose proof (elem_at_app_l DT_F32 m (le_bytes 4 (bits_of_f32 f)) k (or_introl eq_refl)) as E.
      change (f32_at (m ++ le_bytes 4 (bits_of_f32 f)) k) with (elem_at DT_F32 (m ++ le_bytes 4 (bits_of_f32 f)) k). rewrite E.
      * apply Q. lia.
      * change (stride DT_F32) with 4%nat. rewrite L. lia.
Qed.
Lemma pigeonhole (c : nat -> Z) (M : Z) : (0 <= M)%Z -> (forall i, (i < Z.to_nat M + 2)%nat -> (0 <= c i <= M)%Z) ->
  exists i j, (i < j < Z.to_nat M + 2)%nat /\ c i = c j.
Proof.
  intros HM H. set (n := (Z.to_nat M + 2)%nat) in *.
  destruct (classic (NoDup (map c (seq 0 n)))) as [N|N].
  - exfalso. assert (I : incl (map c (seq 0 n)) (map Z.of_nat (seq 0 (Z.to_nat M + 1)))).
    { intros z Hz. apply in_map_iff in Hz. destruct Hz as (i & <- & Hi). apply in_seq in Hi. specialize (H i ltac:(lia)).
      apply in_map_iff. exists (Z.to_nat (c i)). split; [lia|]. apply in_seq. lia. }
    pose proof (NoDup_incl_length N I) as L. rewrite !map_length, !seq_length in L. lia.
  - apply NNPP. intros NE. apply N. apply (NoDup_nth _ 0%Z). rewrite map_length, seq_length. intros i j Hi Hj E.
    rewrite (nth_indep _ 0%Z (c 0%nat)) in E by (rewrite map_length, seq_length; auto).
    rewrite (nth_indep (map c (seq 0 n)) 0%Z (c 0%nat)) in E by (rewrite map_length, seq_length; auto).
    rewrite !map_nth, !seq_nth in E by auto. rewrite !Nat.add_0_l in E.
    destruct (Nat.lt_trichotomy i j) as [L|[L|L]]; auto; exfalso; apply NE; [exists i, j|exists j, i]; split; auto; lia.
Qed.
Lemma bp n : bpow radix2 (- Z.of_nat n) = / 2 ^ n.
Proof. rewrite bpow_opp, <- IZR_Zpower by lia. change (radix_val radix2) with 2%Z. rewrite <- pow_IZR. reflexivity. Qed.
Lemma spread_data dq lo hi : quant_type dq -> in32 lo -> in32 hi -> lo <= 0 <= hi -> bpow radix2 (-118) <= hi - lo <= bpow radix2 100 ->
  let n := (Z.to_nat (code_max dq) + 2)%nat in
  exists m, finite_data DT_F32 m n /\ data_range DT_F32 m n lo hi /\
    forall i j, (i < j < n)%nat -> (hi - lo) / IZR (code_max dq + 1) * (1 - / 2 ^ 14) <= val (f32_at m j) - val (f32_at m i).
Proof.
  intros Hq I1 I2 Z0 W n. set (N := IZR (code_max dq + 1)).
  assert (NB : 4 <= N <= 256) by (unfold N; destruct Hq as [->|[->| ->]]; [change (code_max DT_UINT2 + 1)%Z with 4%Z|change (code_max DT_UINT4 + 1)%Z with 16%Z|change (code_max DT_UINT8 + 1)%Z with 256%Z]; lra).
  assert (NM : (0 <= code_max dq)%Z) by (destruct Hq as [->|[->| ->]]; discriminate).
  set (P := fun k => lo + INR k * ((hi - lo) / N)).
  assert (D : 0 <= (hi - lo) / N) by (apply Rmult_le_pos; [lra|apply Rlt_le, Rinv_0_lt_compat; lra]).
  assert (Pn : forall k, (k < n)%nat -> lo <= P k <= hi).
  { intros k Hk. unfold P. assert (0 <= INR k <= N).
    { split; [apply pos_INR|]. rewrite INR_IZR_INZ. unfold N. apply IZR_le. unfold n in Hk. lia. }
    split; [pose proof (Rmult_le_pos (INR k) _ ltac:(lra) D); lra|].
    apply Rle_trans with (lo + N * ((hi - lo) / N)); [pose proof (Rmult_le_compat_r _ _ _ D (proj2 H)); lra|]. right. field. lra. }
  assert (Rg : forall k, (k < n)%nat -> lo <= RN32 (P k) <= hi).
  { intros k Hk. specialize (Pn k Hk). split.
    - rewrite <- (RN32_fmt lo) by apply I1. apply RN32_le. lra.
    - rewrite <- (RN32_fmt hi) by apply I2. apply RN32_le. lra. }
  destruct (buffer_of (fun k f => finite f /\ val f = RN32 (P k)) n) as (m & B & L & Q).
  { intros k Hk. apply f32_exists; [apply RN32_in_fmt|]. specialize (Rg k Hk). destruct I1 as [_ I1], I2 as [_ I2].
    apply Rabs_def1; [apply Rabs_def2 in I2; lra|apply Rabs_def2 in I1; lra]. }
  exists m. split; [split; [exact B|split; [exact L|intros i Hi; apply (Q i Hi)]]|]. split.
  - split; [|split].
    + exists 0%nat. split; [unfold n; lia|]. change (elem_at DT_F32 m 0) with (f32_at m 0). rewrite (proj2 (Q 0%nat ltac:(unfold n; lia))).
      unfold P. cbn [INR]. rewrite Rmult_0_l, Rplus_0_r. apply RN32_fmt, I1.
    + exists (Z.to_nat (code_max dq) + 1)%nat. split; [unfold n; lia|]. change (elem_at DT_F32 m ?k) with (f32_at m k).
      rewrite (proj2 (Q (Z.to_nat (code_max dq) + 1)%nat ltac:(unfold n; lia))).
      replace (P (Z.to_nat (code_max dq) + 1)%nat) with hi; [apply RN32_fmt, I2|]. unfold P.
      replace (INR (Z.to_nat (code_max dq) + 1)) with N; [field; lra|]. unfold N. rewrite INR_IZR_INZ. f_equal. lia.
    + intros i Hi. change (elem_at DT_F32 m i) with (f32_at m i). rewrite (proj2 (Q i Hi)). auto.
  - intros i j Hij. rewrite (proj2 (Q i ltac:(lia))), (proj2 (Q j ltac:(lia))).
    assert (Err : forall k, (k < n)%nat -> Rabs (RN32 (P k) - P k) <= / 2 ^ 23 * (hi - lo)).
    { intros k Hk. pose proof (PropsContract.RN32_err (P k)) as E. specialize (Pn k Hk).
      assert (A : Rabs (P k) <= hi - lo) by (apply Rabs_le; lra).
      assert (T : bpow radix2 (-150) <= / 2 ^ 24 * (hi - lo)).
      { apply Rle_trans with (/ 2 ^ 24 * bpow radix2 (-118)); [|apply Rmult_le_compat_l; [apply Rlt_le, Rinv_0_lt_compat, pow_lt; lra|lra]].
        rewrite <- (bp 24), <- bpow_plus. apply bpow_le. lia. }
      change (-24)%Z with (- Z.of_nat 24)%Z in E. rewrite (bp 24) in E. cbn [pow] in *. nra. }
    pose proof (Err i ltac:(lia)) as E1. pose proof (Err j ltac:(lia)) as E2. apply Rabs_le_inv in E1. apply Rabs_le_inv in E2.
    assert (G : (hi - lo) / N <= P j - P i).
    { unfold P. replace (lo + INR j * ((hi - lo) / N) - (lo + INR i * ((hi - lo) / N))) with ((INR j - INR i) * ((hi - lo) / N)) by ring.
      rewrite <- minus_INR by lia. assert (1 <= INR (j - i)) by (change 1 with (INR 1); apply le_INR; lia). nra. }
    assert (W2 : / 2 ^ 22 * (hi - lo) <= (hi - lo) / N * / 2 ^ 14).
    { replace (hi - lo) with ((hi - lo) / N * N) at 1 by (field; lra). cbn [pow]. nra. }
    cbn [pow] in *. lra.
Qed.
(** No scheme with 2^bits codes guarantees less than (max - min) / 2^(bits + 1), up to the spacing of the floats. *)
Theorem C65_lower_bound dq lo hi E : quant_type dq -> in32 lo -> in32 hi -> lo <= 0 <= hi -> bpow radix2 (-118) <= hi - lo <= bpow radix2 100 ->
  achievable dq lo hi E -> (hi - lo) / IZR (code_max dq + 1) * (/ 2 - / 2 ^ 15) <= E.
Proof.
  intros Hq I1 I2 Z0 W H. destruct (spread_data dq lo hi Hq I1 I2 Z0 W) as (m & FD & DR & G). destruct (H m _ FD DR) as (code & meaning & C).
  destruct (pigeonhole code (code_max dq)) as (i & j & Hij & E0).
  { destruct Hq as [->|[->| ->]]; discriminate. }
  { intros i Hi. apply C. exact Hi. }
  specialize (G i j Hij). destruct (C i ltac:(lia)) as [_ C1], (C j ltac:(lia)) as [_ C2]. rewrite E0 in C1.
  apply Rabs_le_inv in C1. apply Rabs_le_inv in C2. cbn [pow] in *. lra.
Qed.
(** ... and that much is achievable (by cells of equal width with their middles as meanings), so the bound is sharp. *)
Theorem C65_bound_attained dq lo hi : quant_type dq -> lo < hi -> achievable dq lo hi ((hi - lo) / IZR (code_max dq + 1) * / 2).
Proof.
  intros Hq H m n FD (D1 & D2 & D3). set (N := IZR (code_max dq + 1)).
  assert (NB : 4 <= N <= 256) by (unfold N; destruct Hq as [->|[->| ->]]; [change (code_max DT_UINT2 + 1)%Z with 4%Z|change (code_max DT_UINT4 + 1)%Z with 16%Z|change (code_max DT_UINT8 + 1)%Z with 256%Z]; lra).
  assert (MP : (0 <= code_max dq)%Z) by (destruct Hq as [->|[->| ->]]; discriminate).
  set (d := (hi - lo) / N). assert (DP : 0 < d) by (apply Rmult_lt_0_compat; [lra|apply Rinv_0_lt_compat; lra]).
  exists (fun i => Z.min (Zfloor ((val (f32_at m i) - lo) / d)) (code_max dq)), (fun k => lo + (IZR k + / 2) * d).
  intros i Hi. specialize (D3 i Hi). change (elem_at DT_F32 m i) with (f32_at m i) in D3. set (x := val (f32_at m i)) in *. clearbody x.
  set (y := (x - lo) / d). assert (Ex : x = lo + y * d) by (unfold y; field; lra).
  assert (YB : 0 <= y <= N).
  { split; [apply Rmult_le_pos; [lra|apply Rlt_le, Rinv_0_lt_compat; lra]|]. apply Rmult_le_reg_r with d; [lra|].
    replace (y * d) with (x - lo) by (rewrite Ex; ring). replace (N * d) with (hi - lo) by (unfold d; field; lra). lra. }
  pose proof (Zfloor_lb y) as F1. pose proof (Zfloor_ub y) as F2. assert (F0 : (0 <= Zfloor y)%Z) by (apply Zfloor_lub; lra).
  split; [lia|]. assert (B : IZR (Z.min (Zfloor y) (code_max dq)) <= y <= IZR (Z.min (Zfloor y) (code_max dq)) + 1).
  { destruct (Z.min_spec (Zfloor y) (code_max dq)) as [[_ ->]|[L ->]]; [lra|]. split; [apply IZR_le in L; lra|].
    replace (IZR (code_max dq) + 1) with N by (unfold N; rewrite plus_IZR; ring). lra. }
  set (c := IZR (Z.min (Zfloor y) (code_max dq))) in *. clearbody c. rewrite Ex. apply Rabs_le. nra.
Qed.
(** The error of the library with the parameters it computes is within 2^bits / (2^bits - 1) of every error that any scheme can guarantee. *)
Theorem C65_near_optimal a blocks A nt oaddr A2 nt2 oaddr2 dq scale zp thr inm pk p extra outm r lo hi :
  let n := numel DT_F32 (length outm) in
  a <> SSE42 -> finite_data DT_F32 inm n -> block_cover n blocks ->
  data_range DT_F32 inm n lo hi -> lo <= 0 <= hi -> bpow radix2 (-118) <= hi - lo <= bpow radix2 100 ->
  compute_quant_config_from_data a DT_F32 dq inm blocks = Ok (scale, zp) ->
  buffers_ok nt DT_F32 dq inm pk -> length inm = length outm -> sizes_ok (length outm) n nt2 -> Forall is_byte extra -> extra <> [] ->
  returns inm pk (quantize_call A nt oaddr DT_F32 dq scale zp RM_NEAREST thr inm pk) (Ok p) ->
  returns (p ++ extra) outm (dequantize_call A2 nt2 oaddr2 dq DT_F32 scale zp RO_SET (length p) outm) r ->
  exists o, r = Ok o /\
    forall E, achievable dq lo hi E ->
    forall i, (i < n)%nat ->
      Rabs (val (f32_at o i) - val (f32_at inm i)) <= E * (IZR (code_max dq + 1) / IZR (code_max dq)) * (1 + / 2 ^ 10).
Proof.
  intros n Ha FD BC DR Z0 W HC HB HL HS HE1 HE2 R1 R2. pose proof HB as (_ & Hq & _).
  destruct (C23_data_is_represented a blocks A nt oaddr A2 nt2 oaddr2 dq scale zp thr inm pk p extra outm r lo hi Ha FD BC DR Z0 W HC HB HL HS HE1 HE2 R1 R2)
    as (o & Eo & S1 & S2). exists o. split; [exact Eo|]. intros E HA i Hi. specialize (S2 i Hi).
  assert (I1 : in32 lo) by (destruct DR as ((k & Hk & <-) & _); apply in32_val, FD; auto).
  assert (I2 : in32 hi) by (destruct DR as (_ & (k & Hk & <-) & _); apply in32_val, FD; auto).
  pose proof (C65_lower_bound dq lo hi E Hq I1 I2 Z0 W HA) as LB.
  set (M := IZR (code_max dq)) in *.
  assert (EN : IZR (code_max dq + 1) = M + 1) by (unfold M; rewrite plus_IZR; reflexivity). rewrite EN in *.
  assert (MB : 3 <= M <= 255) by (unfold M; destruct Hq as [->|[->| ->]]; [change (code_max DT_UINT2) with 3%Z|change (code_max DT_UINT4) with 15%Z|change (code_max DT_UINT8) with 255%Z]; lra).
  clearbody M. clear - S1 S2 LB MB Z0 W.
  eapply Rle_trans; [exact S2|]. change (-23)%Z with (- Z.of_nat 23)%Z in S1. change (-12)%Z with (- Z.of_nat 12)%Z. rewrite bp in S1. rewrite bp.
  apply Rabs_le_inv in S1. pose proof (bpow_gt_0 radix2 (-118)) as BP.
  assert (WP : 0 < hi - lo) by lra.
  replace ((hi - lo) / (M + 1)) with (((hi - lo) / M) * (M / (M + 1))) in LB by (field; lra).
  assert (DP : 0 < (hi - lo) / M) by (apply Rmult_lt_0_compat; [lra|apply Rinv_0_lt_compat; lra]).
  set (d := (hi - lo) / M) in *. clearbody d.
  assert (LB2 : d * (/ 2 - / 2 ^ 15) <= E * ((M + 1) / M)).
  { assert (Q : 0 < (M + 1) / M) by (apply Rmult_lt_0_compat; [lra|apply Rinv_0_lt_compat; lra]).
    apply (Rmult_le_compat_r ((M + 1) / M)) in LB; [|lra]. replace (d * (M / (M + 1)) * (/ 2 - / 2 ^ 15) * ((M + 1) / M)) with (d * (/ 2 - / 2 ^ 15)) in LB by (field; lra).
    exact LB. }
  cbn [pow] in *. nra.
Qed.
(** ... but if zero is outside the range, any factor is exceeded: the trivial scheme of one code, meaning the minimum, guarantees [hi - lo], and the library
    misses the minimum by at least [K] times that, as soon as the minimum is (K + 2) times the width of the range. *)
Lemma constant_scheme dq lo hi : quant_type dq -> achievable dq lo hi (hi - lo).
Proof.
  intros Hq m n FD (D1 & D2 & D3). exists (fun _ => 0%Z), (fun _ => lo). intros i Hi. split; [destruct Hq as [->|[->| ->]]; split; discriminate|].
  specialize (D3 i Hi). change (elem_at DT_F32 m i) with (f32_at m i) in D3. apply Rabs_le. lra.
Qed.
Theorem C65_zero_outside_refuted K a blocks A2 nt2 oaddr2 dq scale zp inm pk in_size outm r lo hi :
  let n := numel DT_F32 (length outm) in
  a <> SSE42 -> finite_data DT_F32 inm n -> block_cover n blocks -> data_range DT_F32 inm n lo hi -> bpow radix2 (-118) <= hi - lo <= bpow radix2 100 ->
  0 <= K -> (K + 2) * (hi - lo) <= lo ->
  compute_quant_config_from_data a DT_F32 dq inm blocks = Ok (scale, zp) ->
  dq_buffers nt2 dq DT_F32 pk in_size outm ->
  (* whatever codes [pk] holds *)
  returns pk outm (dequantize_call A2 nt2 oaddr2 dq DT_F32 scale zp RO_SET in_size outm) r ->
  exists o, r = Ok o /\ achievable dq lo hi (hi - lo) /\ forall i, (i < n)%nat -> K * (hi - lo) <= Rabs (val (f32_at o i) - val (f32_at inm i)).
Proof.
  intros n Ha FD BC DR W HK Far HC HB R1. pose proof HB as (Hq & _). pose proof (bpow_gt_0 radix2 (-118)) as P0.
  destruct (C23_zero_outside_refuted a blocks A2 nt2 oaddr2 dq scale zp inm n pk in_size outm r lo hi Ha FD BC DR W HC HB R1) as (o & Eo & H1 & _).
  exists o. split; [exact Eo|]. split; [apply constant_scheme; auto|]. intros i Hi.
  assert (L : 0 < lo) by nra. destruct (H1 L) as [_ H2]. specialize (H2 i Hi). destruct DR as (_ & _ & D3). specialize (D3 i Hi).
  change (elem_at DT_F32 inm i) with (f32_at inm i) in D3. change (-20)%Z with (- Z.of_nat 20)%Z in H2. rewrite bp in H2.
  rewrite Rabs_minus_sym. eapply Rle_trans; [|apply Rle_abs]. cbn [pow] in H2. nra.
Qed.
