(** PropsStable.v -- C61: repeated round trips do not degrade the data.  Dequantize to f32, let compute_quant_config_from_data choose new
    parameters for the result, quantize with them: same zero point, same codes, a scale that moves by less than 2^-22 of itself. *)
From Coq Require Import ZArith List Lia Bool Arith ZifyBool ZifyNat Reals Lra.
From Flocq Require Import Core Binary Bits.
From Verif Require Import Base Floats Simd Dtypes Spec ApiSpec QuantKernels DequantKernels ExecFacts FloatFacts QuantFacts QuantKernelFacts
  QuantGenericFacts DequantFacts DequantGenericFacts QuantLanes Context ContextFacts Footprint QuantizeFacts DequantizeFacts Api PropsQuantize Schedule
  PropsMemory FloatFacts2 PropsDequantize PropsRoundTrip RoundTripFacts PropsIdempotent MinMax MinMaxFacts ConfigSpec F64Facts ConfigFacts PropsConfig
  PropsRepresent PropsReadme.
Import ListNotations.
Open Scope R_scope.

Ltac Zify.zify_post_hook ::= Z.div_mod_to_equations.

(** The scales for which the statements hold: positive, neither microscopic nor astronomic. *)
Definition moderate_scale (scale : f32) : Prop := finite scale /\ bpow radix2 (-110) <= val scale <= bpow radix2 90.
(** The packed buffer uses the whole code range: the smallest and the largest code both occur. *)
Definition full_range (d : dtype) (p : mem) (n : nat) : Prop :=
  (exists i, (i < n)%nat /\ code_at d p i = 0%Z) /\ (exists i, (i < n)%nat /\ code_at d p i = code_max d).

Lemma moderate_normal scale : moderate_scale scale -> normal_scale scale /\ 0 < val scale.
Proof.
  intros (F & L & U). pose proof (bpow_gt_0 radix2 (-110)) as P.
  assert (bpow radix2 (-126) <= bpow radix2 (-110)) by (apply bpow_le; lia). assert (bpow radix2 90 <= bpow radix2 100) by (apply bpow_le; lia).
  split; [|lra]. split; auto. rewrite Rabs_pos_eq; lra.
Qed.

(** what a dequantized f32 buffer holds *)
Lemma dequantized A nt oaddr d scale zp inm in_size outm o :
  let n := numel DT_F32 (length outm) in
  dq_buffers nt d DT_F32 inm in_size outm -> (Z.abs zp <= 2 ^ 30)%Z -> Forall is_byte outm ->
  returns inm outm (dequantize_call A nt oaddr d DT_F32 scale zp RO_SET in_size outm) (Ok o) ->
  length o = length outm /\ Forall is_byte o /\ forall i, (i < n)%nat -> f32_at o i = dequant_value scale zp (code_at d inm i).
Proof.
  intros n HB Hz30 Hby HD.
  assert (Hno : RO_SET = RO_ADD -> finite scale) by discriminate.
  destruct (dequantize_f32 _ _ _ _ _ _ _ _ _ _ _ HB Hz30 Hno HD) as (o' & E & HL & HE & HF). injection E as <-. fold n in HE, HF.
  assert (HE' : forall i, (i < n)%nat -> slice (4 * i) 4 o = le_bytes 4 (bits_of_f32 (dequant_value scale zp (code_at d inm i)))).
  { intros i Hi. rewrite HE by auto. unfold reaches. destruct d; auto. destruct (_ <? _); auto. }
  split; auto. split.
  - apply Forall_forall. intros x Hx. apply (In_nth _ _ 0%Z) in Hx. destruct Hx as (k & Hk & <-).
    destruct (Nat.lt_ge_cases k (4 * n)) as [L|L].
    + specialize (HE' (k / 4)%nat ltac:(lia)). apply (f_equal (fun l => nth (k mod 4)%nat l 0%Z)) in HE'.
      rewrite nth_slice in HE' by lia. replace (4 * (k / 4) + k mod 4)%nat with k in HE' by lia. rewrite HE'.
      pose proof (le_bytes_is_byte 4 (bits_of_f32 (dequant_value scale zp (code_at d inm (k / 4)%nat)))) as F. rewrite Forall_forall in F. apply F.
      apply nth_In. rewrite le_bytes_length. lia.
    + rewrite HF by auto. rewrite Forall_forall in Hby. apply Hby, nth_In. lia.
  - intros i Hi. rewrite f32_at_ld, HE' by auto. apply ld_f32_bytes.
Qed.

(** the range of the dequantized data when both end codes occur *)
Definition low_end (scale : f32) (zp : Z) : R := RN32 (IZR (0 - zp) * val scale).
Definition high_end (d : dtype) (scale : f32) (zp : Z) : R := RN32 (IZR (code_max d - zp) * val scale).

Lemma decoded_range d scale zp inm o n : quant_type d -> moderate_scale scale -> (0 <= zp <= code_max d)%Z -> full_range d inm n ->
  (forall i, (i < n)%nat -> f32_at o i = dequant_value scale zp (code_at d inm i)) ->
  data_range DT_F32 o n (low_end scale zp) (high_end d scale zp).
Proof.
  intros Hq Hm Hz ((i0 & L0 & C0) & (i1 & L1 & C1)) HX. destruct (moderate_normal _ Hm) as [Hs Hp]. pose proof (code_max_range d Hq) as Hc.
  assert (V : forall i, (i < n)%nat -> val (elem_at DT_F32 o i) = RN32 (IZR (code_at d inm i - zp) * val scale)).
  { intros i Hi. cbn [elem_at]. rewrite HX by auto. apply dequant_value_ok; auto. pose proof (code_at_le d inm i Hq). lia. }
  split; [|split].
  - exists i0. split; auto. rewrite V, C0 by auto. reflexivity.
  - exists i1. split; auto. rewrite V, C1 by auto. reflexivity.
  - intros i Hi. rewrite V by auto. pose proof (code_at_le d inm i Hq) as Hcc. unfold low_end, high_end.
    split; apply RN32_le, Rmult_le_compat_r; try lra; apply IZR_le; lia.
Qed.

(** the parameters computed for that range *)
Lemma ends_params d scale zp : quant_type d -> moderate_scale scale -> (0 <= zp <= code_max d)%Z ->
  let lo := low_end scale zp in let hi := high_end d scale zp in in32 lo -> in32 hi ->
  lo < hi /\ config_zp d lo hi = zp /\ Rabs (config_scale d lo hi - val scale) <= bpow radix2 (-22) * val scale /\
  bpow radix2 (-126) <= config_scale d lo hi <= bpow radix2 100.
Proof.
  intros Hq Hm Hz lo hi I1 I2. destruct (moderate_normal _ Hm) as [Hs Hp]. destruct Hm as (_ & ML & MU).
  pose proof (code_max_range d Hq) as Hc. pose proof (code_max_R d Hq) as Q.
  destruct (product_rel scale (0 - zp) Hs) as (d1 & Hd1 & E1). destruct (product_rel scale (code_max d - zp) Hs) as (d2 & Hd2 & E2).
  fold (low_end scale zp) in E1. fold (high_end d scale zp) in E2. fold lo in E1. fold hi in E2.
  set (m := IZR (code_max d)) in *. set (z := IZR zp). set (s := val scale) in *.
  assert (Hz' : 0 <= z <= m) by (split; apply IZR_le; lia).
  assert (Ez : IZR (0 - zp) = - z) by (rewrite minus_IZR; unfold z; lra). assert (Emz : IZR (code_max d - zp) = m - z) by (rewrite minus_IZR; reflexivity).
  rewrite Ez in E1. rewrite Emz in E2. clear Ez Emz. apply Rabs_le_inv in Hd1. apply Rabs_le_inv in Hd2. unfold u32r in Hd1, Hd2.
  set (u := / 16777216) in *. assert (Hu : 0 < u < / 16000000) by (unfold u; lra). 
  set (g := ((m - z) * d2 + z * d1) / m).
  assert (EW : hi - lo = m * s * (1 + g)) by (rewrite E1, E2; unfold g; field; lra).
  assert (Hg : - u <= g <= u).
  { assert (B1 : (m - z) * d2 <= (m - z) * u) by (apply Rmult_le_compat_l; lra). assert (B2 : z * d1 <= z * u) by (apply Rmult_le_compat_l; lra).
    assert (B3 : (m - z) * - u <= (m - z) * d2) by (apply Rmult_le_compat_l; lra). assert (B4 : z * - u <= z * d1) by (apply Rmult_le_compat_l; lra).
    unfold g. split; apply Rmult_le_reg_r with m; try lra; unfold Rdiv; rewrite Rmult_assoc, Rinv_l by lra; lra. }
  assert (Hms : 3 * s <= m * s <= 255 * s) by (split; apply Rmult_le_compat_r; lra).
  assert (W1 : s <= hi - lo) by (rewrite EW; nra). assert (W2 : hi - lo <= 256 * s) by (rewrite EW; nra).
  assert (HB : bpow radix2 (-118) <= hi - lo <= bpow radix2 100).
  { split.
    - apply Rle_trans with (bpow radix2 (-110)); [apply bpow_le; lia|lra].
    - apply Rle_trans with (256 * bpow radix2 90); [lra|]. change 256 with (bpow radix2 8). rewrite <- bpow_plus. apply bpow_le. lia. }
  assert (HLH : lo < hi) by lra.
  assert (H0 : lo <= 0 <= hi).
  { rewrite E1, E2. split.
    - assert (0 <= z * s) by (apply Rmult_le_pos; lra). assert (0 <= z * s * (1 + d1)) by (apply Rmult_le_pos; lra). lra.
    - apply Rmult_le_pos; [|lra]. apply Rmult_le_pos; lra. }
  destruct (step_bounds d lo hi Hq I1 I2 HLH) as (e1 & He1 & ES & B1 & _).
  destruct (config_scale_rel d lo hi Hq I1 I2 HB) as (e2 & He2 & EC & BC).
  destruct (config_zp_near d lo hi Hq I1 I2 HLH H0) as (T & Z & N).
  apply Rabs_le_inv in He1. apply Rabs_le_inv in He2. unfold u64r in He1. unfold u32r in He2.
  fold m in ES. assert (ES' : config_step d lo hi = s * ((1 + g) * (1 + e1))) by (rewrite ES, EW; field; lra).
  set (w := / 9007199254740992) in *. assert (Hw : 0 < w < / 9000000000000000) by (unfold w; lra). fold u in He2.
  set (h := (1 + g) * (1 + e1)) in *.
  assert (Hh : 1 - / 8000000 <= h <= 1 + / 8000000).
  { unfold h. split; nra. }
  split; auto. split; [|split]; auto.
  - pose proof (bpow_gt_0 radix2 (-157)) as P.
    assert (ET : - lo / config_step d lo hi = z * ((1 + d1) * / h)) by (rewrite ES', E1; field; lra). rewrite ET in N.
    assert (Ih : 1 - / 7000000 <= / h <= 1 + / 7000000).
    { split; apply Rmult_le_reg_r with h; try lra; rewrite Rinv_l by lra; nra. }
    set (j := (1 + d1) * / h) in *. assert (Hj : 1 - / 4000000 <= j <= 1 + / 4000000) by (unfold j; split; nra).
    assert (Z1 : z - / 10000 <= z * j) by nra. assert (Z2 : z * j <= z + / 10000) by nra.
    apply Rabs_le_inv in N. set (z' := config_zp d lo hi) in *. unfold z in *.
    assert (X1 : IZR zp < IZR (z' + 1)) by (rewrite plus_IZR; lra). assert (X2 : IZR z' < IZR (zp + 1)) by (rewrite plus_IZR; lra).
    apply lt_IZR in X1. apply lt_IZR in X2. lia.
  - rewrite EC, ES'. replace (s * h * (1 + e2) - s) with ((h * (1 + e2) - 1) * s) by ring. rewrite Rabs_mult, (Rabs_pos_eq s) by lra.
    apply Rmult_le_compat_r; [lra|]. change (bpow radix2 (-22)) with (/ 4194304).
    replace (h * (1 + e2) - 1) with (g + e2 + g * e2 + e1 * (1 + g) * (1 + e2)) by (unfold h; ring).
    apply Rabs_le. unfold u in *. assert (- / 16777216 <= g * e2 <= / 16777216 * / 2) by (split; nra).
    assert (0 <= (1 + g) * (1 + e2) <= 2) by (split; nra). set (k := (1 + g) * (1 + e2)) in *. rewrite !Rmult_assoc. fold k.
    assert (- (6 * w) <= e1 * k <= 6 * w) by (split; nra). split; lra.
Qed.

(** a value decoded with one scale, re-quantized with a scale 2^-22 away *)
Lemma requant_other d scale scale' zp q : quant_type d -> moderate_scale scale -> normal_scale scale' ->
  Rabs (val scale' - val scale) <= bpow radix2 (-22) * val scale -> (0 <= zp <= code_max d)%Z -> (0 <= q <= code_max d)%Z ->
  let x := dequant_value scale zp q in
  quantizable scale' x /\ quant_code d (val scale') zp (val x) = q /\ Rabs (scaled (val scale') (val x)) <> pred_half.
Proof.
  intros Hq Hm Hs' Hd Hz Hc x. destruct (moderate_normal _ Hm) as [Hs Hp]. pose proof (code_max_range d Hq) as HM.
  assert (Hk0 : (Z.abs (q - zp) <= 2 ^ 20)%Z) by lia. destruct (dequant_value_ok scale zp q Hs Hk0) as [F V]. fold x in F, V.
  destruct (product_rel scale (q - zp) Hs) as (e & He & E). rewrite E in V.
  change (bpow radix2 (-22)) with (/ 4194304) in Hd. apply Rabs_le_inv in Hd. apply Rabs_le_inv in He. unfold u32r in He.
  assert (Hk : Rabs (IZR (q - zp)) <= IZR 255) by (apply abs_IZR_le; lia). change (IZR 255) with 255 in Hk.
  set (K := IZR (q - zp)) in *. pose proof (Rabs_pos K) as HP.
  assert (N : Rabs (val x / val scale' - K) <= / 1000000 * Rabs K).
  { assert (P' : 0 < val scale') by lra.
    set (h := val scale' / val scale). assert (Hh : 1 - / 4194304 <= h <= 1 + / 4194304).
    { unfold h. split; apply Rmult_le_reg_r with (val scale); try lra; unfold Rdiv; rewrite Rmult_assoc, Rinv_l by lra; lra. }
    assert (Ih : 1 - / 4000000 <= / h <= 1 + / 4000000) by (split; apply Rmult_le_reg_r with h; try lra; rewrite Rinv_l by lra; nra).
    replace (val x / val scale' - K) with (((1 + e) * / h - 1) * K) by (rewrite V; unfold h; field; lra).
    rewrite Rabs_mult. apply Rmult_le_compat_r; auto. apply Rabs_le. split; nra. }
  destruct (requant_code d scale' zp q x (/ 1000000 * Rabs K) Hq Hs') as (R1 & R2 & R3); auto; fold K; unfold u32r in *; try lra; try lia.
  split; auto. split; auto. apply R3. fold K. lra.
Qed.

(** ** C61.  Dequantize a packed buffer in which both end codes occur to f32, let compute_quant_config_from_data choose parameters for
    the result (any CPU but SSE4.2, any cut into blocks), quantize the result (nearest) with them (any CPU, any number of threads, any
    schedule): the zero point is the old one, the scale the old one up to a relative 2^-22, and every code comes back. *)
Theorem C61_round_trip_is_stable A nt oaddr a blocks d scale zp inm in_size outm o :
  let n := numel DT_F32 (length outm) in
  dq_buffers nt d DT_F32 inm in_size outm -> Forall is_byte outm -> length outm = (4 * n)%nat ->
  moderate_scale scale -> (0 <= zp <= code_max d)%Z -> full_range d inm n ->
  returns inm outm (dequantize_call A nt oaddr d DT_F32 scale zp RO_SET in_size outm) (Ok o) ->
  a <> SSE42 -> block_cover n blocks ->
  exists scale', compute_quant_config_from_data a DT_F32 d o blocks = Ok (scale', zp) /\ finite scale' /\
    Rabs (val scale' - val scale) <= bpow radix2 (-22) * val scale /\
    forall A' nt' oaddr' thr pk r, length pk = bytes_for d n -> sizes_ok (length outm) n nt' ->
      returns o pk (quantize_call A' nt' oaddr' DT_F32 d scale' zp RM_NEAREST thr o pk) r ->
      exists p, r = Ok p /\ length p = length pk /\ Forall is_byte p /\ forall i, (i < n)%nat -> code_at d p i = code_at d inm i.
Proof.
  intros n HB Hby HL4 Hm Hz HF HD Ha HBl. pose proof HB as (Hq & _). pose proof (code_max_range d Hq) as HM.
  destruct (moderate_normal _ Hm) as [Hs Hp].
  assert (Hz30 : (Z.abs zp <= 2 ^ 30)%Z) by lia. destruct (dequantized A nt oaddr d scale zp inm in_size outm o HB Hz30 Hby HD) as (HL & Hbo & HX). fold n in HX.
  pose proof (decoded_range d scale zp inm o n Hq Hm Hz HF HX) as HR.
  assert (HFin : finite_data DT_F32 o n).
  { split; auto. split; [rewrite HL; exact HL4|]. intros i Hi. cbn [elem_at]. rewrite HX by auto. apply dequant_value_ok; auto.
    pose proof (code_at_le d inm i Hq). lia. }
  assert (I1 : in32 (low_end scale zp)) by (destruct HR as ((i & Hi & <-) & _); apply in32_val, HFin; auto).
  assert (I2 : in32 (high_end d scale zp)) by (destruct HR as (_ & (i & Hi & <-) & _); apply in32_val, HFin; auto).
  destruct (ends_params d scale zp Hq Hm Hz I1 I2) as (LH & EZ & ES & BC).
  destruct (C21_documented_parameters a DT_F32 d o n blocks _ _ Ha (or_introl eq_refl) Hq HFin HBl HR LH) as (s' & EC & Fs & Vs).
  rewrite EZ in EC. rewrite <- Vs in ES, BC. exists s'. split; auto. split; auto. split; auto.
  intros A' nt' oaddr' thr pk r Hl HS HQ. pose proof (bpow_gt_0 radix2 (-126)) as P.
  assert (Hs' : normal_scale s') by (split; auto; rewrite Rabs_pos_eq; lra).
  assert (HB' : buffers_ok nt' DT_F32 d o pk).
  { unfold buffers_ok. rewrite HL. fold n. split; [left; reflexivity|]. auto. }
  assert (R : forall i, (i < n)%nat -> let x := dequant_value scale zp (code_at d inm i) in
     quantizable s' x /\ quant_code d (val s') zp (val x) = code_at d inm i /\ Rabs (scaled (val s') (val x)) <> pred_half).
  { intros i Hi. apply requant_other; auto. apply code_at_le; auto. }
  assert (Hn : numel DT_F32 (length o) = n) by (rewrite HL; reflexivity). assert (Hz22 : (Z.abs zp <= 2 ^ 22)%Z) by lia.
  destruct (C01_quantize_nearest A' nt' oaddr' DT_F32 d s' zp thr o pk r HB' (normal_good _ Hs') Hz22) as (p & -> & HLp & HC); auto.
  - rewrite Hn. intros i Hi. cbn [elem_at]. rewrite HX by auto. destruct (R i Hi) as (R1 & _ & R3). split; auto.
  - destruct (quantize_near A' nt' oaddr' DT_F32 d s' zp thr o pk (Ok p) HB' (normal_good _ Hs') Hz22) as (p' & E & _ & Hbp & _); auto.
    { rewrite Hn. intros i Hi. cbn [elem_at]. rewrite HX by auto. apply (R i Hi). }
    injection E as <-. exists p. split; auto. split; auto. split; auto. rewrite Hn in HC. intros i Hi. rewrite HC by auto. cbn [elem_at]. rewrite HX by auto.
    destruct (R i Hi) as (_ & R2 & _). exact R2.
Qed.

(** One more trip of a packed tensor: dequantize it with its parameters, compute parameters for the f32 result, quantize the result with
    these.  Every step may run on another CPU, with another number of threads, another cut into blocks; [extra] is what follows the
    packed bytes in memory (a 2-bit buffer may be read one byte past its end). *)
Inductive trip (d : dtype) (n : nat) : f32 * Z * mem -> f32 * Z * mem -> Prop :=
| Trip A nt oaddr a blocks A' nt' oaddr' thr extra outm o pk scale zp p scale' zp' p' :
    Forall is_byte extra -> extra <> [] -> Forall is_byte outm -> length outm = (4 * n)%nat -> length pk = bytes_for d n ->
    sizes_ok (4 * n) n nt -> sizes_ok (4 * n) n nt' -> a <> SSE42 -> block_cover n blocks ->
    returns (p ++ extra) outm (dequantize_call A nt oaddr d DT_F32 scale zp RO_SET (length p) outm) (Ok o) ->
    compute_quant_config_from_data a DT_F32 d o blocks = Ok (scale', zp') ->
    returns o pk (quantize_call A' nt' oaddr' DT_F32 d scale' zp' RM_NEAREST thr o pk) (Ok p') ->
    trip d n (scale, zp, p) (scale', zp', p').
(** [k] trips in a row *)
Inductive trips (d : dtype) (n : nat) : nat -> f32 * Z * mem -> f32 * Z * mem -> Prop :=
| NoTrip t : trips d n 0 t t
| MoreTrips k t t' t'' : trips d n k t t' -> trip d n t' t'' -> trips d n (S k) t t''.

Lemma packed_input nt d n p extra outm : quant_type d -> length p = bytes_for d n -> Forall is_byte p -> Forall is_byte extra -> extra <> [] ->
  length outm = (4 * n)%nat -> sizes_ok (4 * n) n nt ->
  dq_buffers nt d DT_F32 (p ++ extra) (length p) outm /\ numel DT_F32 (length outm) = n /\
  forall i, (i < n)%nat -> code_at d (p ++ extra) i = code_at d p i.
Proof.
  intros Hq HLp Hb He Hne HL HS. assert (Hn : numel DT_F32 (length outm) = n) by (rewrite HL; unfold numel; change (stride DT_F32) with 4%nat; lia).
  split; [|split]; auto.
  - unfold dq_buffers. rewrite Hn, HL. split; auto. split; [left; reflexivity|]. split; [apply Forall_app; auto|]. split; auto. rewrite app_length.
    split; [lia|]. split; auto. intros _ _ _ _. destruct extra; [congruence|cbn; lia].
  - intros i Hi. apply code_at_app; auto. rewrite HLp, codes_per_byte_q, bytes_for_per_byte by auto. destruct Hq as [->|[->| ->]]; cbn [per_byte]; lia.
Qed.

Lemma full_range_ext d p p' n : (forall i, (i < n)%nat -> code_at d p' i = code_at d p i) -> full_range d p n -> full_range d p' n.
Proof.
  intros H ((i & Hi & E) & (j & Hj & E')). split; [exists i|exists j]; split; auto; rewrite H; auto.
Qed.

(** One trip: same zero point, same codes, almost the same scale. *)
Theorem C61_one_trip d n scale zp p scale' zp' p' : quant_type d -> moderate_scale scale -> (0 <= zp <= code_max d)%Z ->
  length p = bytes_for d n -> Forall is_byte p -> full_range d p n ->
  trip d n (scale, zp, p) (scale', zp', p') ->
  zp' = zp /\ finite scale' /\ Rabs (val scale' - val scale) <= bpow radix2 (-22) * val scale /\
  length p' = length p /\ Forall is_byte p' /\ forall i, (i < n)%nat -> code_at d p' i = code_at d p i.
Proof.
  intros Hq Hm Hz HLp Hb HF HT. inversion HT as [A nt oaddr a blocks A' nt' oaddr' thr extra outm o pk s0 z0 p0 s1 z1 p1 He Hne Hbo HLo HLk HS HS' Ha HBl HD HC HQ]; subst.
  destruct (packed_input nt d n p extra outm Hq HLp Hb He Hne HLo HS) as (HB & Hn & HCd).
  pose proof (full_range_ext d p (p ++ extra) n HCd HF) as HF'.
  destruct (C61_round_trip_is_stable A nt oaddr a blocks d scale zp (p ++ extra) (length p) outm o HB Hbo) as (s2 & E & Fs & Ds & HX); try rewrite Hn; auto.
  rewrite HC in E. injection E as <- <-. rewrite Hn, HLo in HX.
  destruct (HX A' nt' oaddr' thr pk (Ok p') HLk HS' HQ) as (p2 & E & HL2 & Hb2 & HC2). injection E as <-.
  split; auto. split; auto. split; auto. split; [congruence|]. split; auto. intros i Hi. rewrite HC2, HCd; auto.
Qed.

(** [k] trips (up to a million): the zero point and all codes are those of the beginning, the scale has moved by at most k * 2^-21 of itself. *)
Theorem C61_repeated_trips d n k scale zp p scale' zp' p' : quant_type d -> (Z.of_nat k <= 2 ^ 20)%Z ->
  finite scale -> bpow radix2 (-109) <= val scale <= bpow radix2 89 -> (0 <= zp <= code_max d)%Z ->
  length p = bytes_for d n -> Forall is_byte p -> full_range d p n ->
  trips d n k (scale, zp, p) (scale', zp', p') ->
  zp' = zp /\ finite scale' /\ Rabs (val scale' - val scale) <= INR k * bpow radix2 (-21) * val scale /\
  length p' = length p /\ Forall is_byte p' /\ forall i, (i < n)%nat -> code_at d p' i = code_at d p i.
Proof.
  intros Hq Hk Fs [BL BU] Hz HLp Hb HF HT. pose proof (bpow_gt_0 radix2 (-109)) as P0.
  remember (scale, zp, p) as t0 eqn:E0. remember (scale', zp', p') as t1 eqn:E1. revert scale' zp' p' E1.
  induction HT as [t|k t [[s1 z1] p1] t'' HT IH HT1]; intros scale' zp' p' E1; subst.
  - injection E1 as <- <- <-. replace (val scale - val scale) with 0 by ring. rewrite Rabs_R0. cbn [INR]. rewrite !Rmult_0_l. repeat (split; auto). lra.
  - destruct (IH ltac:(lia) eq_refl s1 z1 p1 eq_refl) as (-> & F1 & D1 & L1 & B1 & C1). clear IH.
    assert (Hk' : INR k * bpow radix2 (-21) <= / 2).
    { change (bpow radix2 (-21)) with (/ 2097152). assert (INR k <= 1048576) by (rewrite INR_IZR_INZ; apply (IZR_le _ (2 ^ 20)); lia). lra. }
    pose proof (pos_INR k) as Pk. change (bpow radix2 (-21)) with (/ 2097152) in *. set (x := INR k) in *. set (s := val scale) in *.
    apply Rabs_le_inv in D1. assert (Hs1 : / 2 * s <= val s1 <= 2 * s) by (split; nra).
    assert (Hm1 : moderate_scale s1).
    { split; auto. split.
      - apply Rle_trans with (/ 2 * bpow radix2 (-109)); [|lra]. change (/ 2) with (bpow radix2 (-1)). rewrite <- bpow_plus. apply bpow_le. lia.
      - apply Rle_trans with (2 * bpow radix2 89); [lra|]. change 2 with (bpow radix2 1). rewrite <- bpow_plus. apply bpow_le. lia. }
    destruct (C61_one_trip d n s1 zp p1 scale' zp' p' Hq Hm1 Hz) as (-> & F2 & D2 & L2 & B2 & C2); auto; try congruence.
    { apply (full_range_ext d p p1 n); auto. }
    split; auto. split; auto. split; [|split; [congruence|split; auto]].
    + change (bpow radix2 (-22)) with (/ 4194304) in D2. apply Rabs_le_inv in D2. rewrite S_INR. fold x. apply Rabs_le. split; nra.
    + intros i Hi. rewrite C2, C1; auto.
Qed.

(** Trips always succeed: whatever the CPUs, thread counts, blocks, addresses and buffers, the three calls complete. *)
Theorem C61_trip_completes d n scale zp p A nt oaddr a blocks A' nt' oaddr' thr extra outm pk : quant_type d -> moderate_scale scale -> (0 <= zp <= code_max d)%Z ->
  length p = bytes_for d n -> Forall is_byte p -> full_range d p n ->
  Forall is_byte extra -> extra <> [] -> Forall is_byte outm -> length outm = (4 * n)%nat -> length pk = bytes_for d n ->
  sizes_ok (4 * n) n nt -> sizes_ok (4 * n) n nt' -> a <> SSE42 -> block_cover n blocks ->
  exists o scale' p', 
    returns (p ++ extra) outm (dequantize_call A nt oaddr d DT_F32 scale zp RO_SET (length p) outm) (Ok o) /\
    compute_quant_config_from_data a DT_F32 d o blocks = Ok (scale', zp) /\
    returns o pk (quantize_call A' nt' oaddr' DT_F32 d scale' zp RM_NEAREST thr o pk) (Ok p') /\
    trip d n (scale, zp, p) (scale', zp, p').
Proof.
  intros Hq Hm Hz HLp Hb HF He Hne Hbo HLo HLk HS HS' Ha HBl. pose proof (code_max_range d Hq) as HM.
  destruct (packed_input nt d n p extra outm Hq HLp Hb He Hne HLo HS) as (HB & Hn & HCd).
  pose proof (full_range_ext d p (p ++ extra) n HCd HF) as HF'.
  destruct (returns_total (p ++ extra) outm (dequantize_call A nt oaddr d DT_F32 scale zp RO_SET (length p) outm)) as [r HR].
  assert (Hz30 : (Z.abs zp <= 2 ^ 30)%Z) by lia.
  destruct (C07_dequantize_set_f32 _ _ _ _ _ _ _ _ _ _ HB Hz30 HR) as (o & -> & _).
  destruct (C61_round_trip_is_stable A nt oaddr a blocks d scale zp (p ++ extra) (length p) outm o HB Hbo) as (s2 & E & Fs & Ds & HX); try rewrite Hn; auto.
  rewrite Hn, HLo in HX.
  destruct (returns_total o pk (quantize_call A' nt' oaddr' DT_F32 d s2 zp RM_NEAREST thr o pk)) as [r HR'].
  destruct (HX A' nt' oaddr' thr pk r HLk HS' HR') as (p2 & -> & _).
  exists o, s2, p2. split; auto. split; auto. split; auto. 
  exact (Trip d n A nt oaddr a blocks A' nt' oaddr' thr extra outm o pk scale zp p s2 zp p2 He Hne Hbo HLo HLk HS HS' Ha HBl HR E HR').
Qed.

(** ** From the data.  [lo * max / (hi - lo)] -- the position of zero in the code range -- is not within 2^-12 of a half-integer. *)
Definition zero_off_tie (d : dtype) (lo hi : R) : Prop :=
  forall j, bpow radix2 (-12) <= Rabs (- lo * IZR (code_max d) / (hi - lo) - (IZR j + / 2)).

Lemma nearest_of t : (forall j, / 4096 <= Rabs (t - (IZR j + / 2))) -> exists J, Rabs (t - IZR J) <= / 2 - / 4096.
Proof.
  intros H. exists (round_half_away t). pose proof (rha_error t) as E. set (J := round_half_away t) in *. apply Rabs_le_inv in E.
  pose proof (H J) as H1. pose proof (H (J - 1)%Z) as H2. rewrite minus_IZR in H2. apply Rabs_le. 
  unfold Rabs in H1, H2. destruct Rcase_abs in H1; destruct Rcase_abs in H2; split; lra.
Qed.
Lemma int_near a b : Rabs (IZR a - IZR b) < 1 -> a = b.
Proof.
  intros H. apply Rabs_def2 in H. assert (X : IZR a < IZR (b + 1)) by (rewrite plus_IZR; lra). assert (Y : IZR b < IZR (a + 1)) by (rewrite plus_IZR; lra).
  apply lt_IZR in X. apply lt_IZR in Y. lia.
Qed.

(** the codes of the two ends of the range *)
Lemma end_codes d lo hi scale k : quant_type d -> in32 lo -> in32 hi -> bpow radix2 (-118) <= hi - lo <= bpow radix2 100 -> lo <= 0 <= hi ->
  zero_off_tie d lo hi -> finite scale -> val scale = config_scale d lo hi ->
  (Rabs (IZR k - scaled (val scale) lo) <= / 2 + bpow radix2 (-25) -> clamp 0 (code_max d) (k + config_zp d lo hi) = 0%Z) /\
  (Rabs (IZR k - scaled (val scale) hi) <= / 2 + bpow radix2 (-25) -> clamp 0 (code_max d) (k + config_zp d lo hi) = code_max d).
Proof.
  intros Hq I1 I2 HB H0 HT Fs Vs. pose proof (bpow_gt_0 radix2 (-118)) as P0. assert (H : lo < hi) by lra.
  destruct (config_scale_rel d lo hi Hq I1 I2 HB) as (e & He & Es & Bs). destruct (step_bounds d lo hi Hq I1 I2 H) as (g & Hg & E & B1 & _).
  destruct (config_zp_near d lo hi Hq I1 I2 H H0) as (T & Z & N). pose proof (code_max_R d Hq) as Q. pose proof (code_max_range d Hq) as HM.
  pose proof (bpow_gt_0 radix2 (-126)) as P1. pose proof (bpow_gt_0 radix2 (-157)) as P2.
  assert (Hs : normal_scale scale) by (split; auto; rewrite Vs, Rabs_pos_eq; lra).
  pose proof (scaled_rel scale lo Hs) as SL. pose proof (scaled_rel scale hi Hs) as SH. rewrite Vs in *. destruct tiny_small as [_ T2].
  unfold zero_off_tie in HT. change (bpow radix2 (-12)) with (/ 4096) in HT. destruct (nearest_of _ HT) as (J & HJ). clear HT.
  apply Rabs_le_inv in He. apply Rabs_le_inv in Hg. unfold u32r in He. unfold u64r in Hg. apply Rabs_le_inv in N. apply Rabs_le_inv in HJ.
  set (zp := config_zp d lo hi) in *. set (m := IZR (code_max d)) in *. set (st := config_step d lo hi) in *. set (s := config_scale d lo hi) in *.
  set (t := - lo * m / (hi - lo)) in *. set (w := hi - lo) in *.
  assert (Ht : 0 <= t <= m).
  { unfold t. split; [apply Rmult_le_pos; [nra|left; apply Rinv_0_lt_compat; lra]|]. apply Rmult_le_reg_r with w; [lra|].
    unfold Rdiv. rewrite Rmult_assoc, Rinv_l by lra. unfold w. nra. }
  set (h := (1 + g) * (1 + e)). assert (Hh : 1 - / 16000000 <= h <= 1 + / 16000000) by (unfold h; split; nra).
  assert (Es' : s = w / m * h) by (rewrite Es, E; unfold h; ring).
  assert (Ih : 1 - / 15000000 <= / h <= 1 + / 15000000) by (split; apply Rmult_le_reg_r with h; try lra; rewrite Rinv_l by lra; nra).
  assert (Ig : 1 - / 15000000 <= / (1 + g) <= 1 + / 15000000) by (split; apply Rmult_le_reg_r with (1 + g); try lra; rewrite Rinv_l by lra; nra).
  assert (Et0 : - lo / st = t * / (1 + g)) by (rewrite E; unfold t; field; lra). rewrite Et0 in N.
  assert (EL : lo / s = - (t * / h)) by (rewrite Es'; unfold t; field; lra).
  assert (EH : hi / s = (m - t) * / h). { rewrite Es'. unfold t. replace hi with (w + lo) by (unfold w; ring). field; lra. }
  rewrite EL in SL. rewrite EH in SH. set (j := / h) in *. set (i := / (1 + g)) in *.
  assert (X1 : t - / 50000 <= t * i <= t + / 50000) by (split; nra). assert (X2 : t - / 50000 <= t * j <= t + / 50000) by (split; nra).
  assert (X3 : (m - t) - / 50000 <= (m - t) * j <= (m - t) + / 50000) by (split; nra).
  assert (Y2 : Rabs (- (t * j)) <= 256) by (apply Rabs_le; lra). assert (Y3 : Rabs ((m - t) * j) <= 256) by (apply Rabs_le; lra).
  assert (EZ : zp = J) by (apply int_near; apply Rabs_def1; lra). rewrite EZ in *. clear EZ.
  change (bpow radix2 (-25)) with (/ 33554432). unfold u32r in SL, SH.
  split; intros K; apply Rabs_le_inv in K.
  - assert (SL' : Rabs (scaled s lo - - (t * j)) <= / 15000) by lra. apply Rabs_le_inv in SL'.
    assert (EK : k = (- J)%Z) by (apply int_near; rewrite opp_IZR; apply Rabs_def1; lra). rewrite EK. unfold clamp. lia.
  - assert (SH' : Rabs (scaled s hi - (m - t) * j) <= / 15000) by lra. apply Rabs_le_inv in SH'.
    assert (EK : k = (code_max d - J)%Z) by (apply int_near; rewrite minus_IZR; fold m; apply Rabs_def1; lra). rewrite EK. unfold clamp. lia.
Qed.

(** The whole workflow on data (f32 or bf16) whose range includes 0: parameters from the data, quantize, then up to a million trips.  Unless
    zero falls (nearly) halfway between two codes, the trips change neither the zero point nor any code. *)
Theorem C61_workflow a blocks A nt oaddr din dq scale zp thr inm pk p lo hi k scale' zp' p' :
  let n := numel din (length inm) in
  a <> SSE42 -> finite_data din inm n -> block_cover n blocks -> data_range din inm n lo hi -> lo <= 0 <= hi ->
  bpow radix2 (-100) <= hi - lo <= bpow radix2 88 -> zero_off_tie dq lo hi ->
  compute_quant_config_from_data a din dq inm blocks = Ok (scale, zp) ->
  buffers_ok nt din dq inm pk ->
  returns inm pk (quantize_call A nt oaddr din dq scale zp RM_NEAREST thr inm pk) (Ok p) ->
  (Z.of_nat k <= 2 ^ 20)%Z -> trips dq n k (scale, zp, p) (scale', zp', p') ->
  full_range dq p n /\ zp' = zp /\ Rabs (val scale' - val scale) <= INR k * bpow radix2 (-21) * val scale /\
  length p' = length p /\ forall i, (i < n)%nat -> code_at dq p' i = code_at dq p i.
Proof.
  intros n Ha HD HBl HR H0 HB HT EC HBu HQ Hk HTr. pose proof HBu as (Hd & Hq & _ & HLp & _). pose proof (bpow_gt_0 radix2 (-100)) as P0.
  assert (H : lo < hi) by lra.
  assert (HB' : bpow radix2 (-118) <= hi - lo <= bpow radix2 100).
  { split; [apply Rle_trans with (bpow radix2 (-100))|apply Rle_trans with (bpow radix2 88)]; try apply HB; apply bpow_le; lia. }
  destruct (C21_documented_parameters a din dq inm n blocks lo hi Ha Hd Hq HD HBl HR H) as (s & E & Fs & Vs).
  rewrite EC in E. injection E as <- ->.
  assert (I1 : in32 lo) by (destruct HR as ((i & Hi & <-) & _); apply in32_val, HD; auto).
  assert (I2 : in32 hi) by (destruct HR as (_ & (i & Hi & <-) & _); apply in32_val, HD; auto).
  destruct (config_scale_rel dq lo hi Hq I1 I2 HB') as (e & He & Es & Bs). destruct (step_bounds dq lo hi Hq I1 I2 H) as (g & Hg & ES & _).
  destruct (config_zp_near dq lo hi Hq I1 I2 H H0) as (T & Z & N). pose proof (bpow_gt_0 radix2 (-126)) as P1. pose proof (code_max_R dq Hq) as Q.
  pose proof (code_max_range dq Hq) as Hm.
  assert (Hs : normal_scale scale) by (split; auto; rewrite Vs, Rabs_pos_eq; lra).
  assert (MS : bpow radix2 (-109) <= val scale <= bpow radix2 89).
  { rewrite Vs, Es, ES. apply Rabs_le_inv in He. apply Rabs_le_inv in Hg. unfold u32r in He. unfold u64r in Hg.
    set (w := hi - lo) in *. set (m := IZR (code_max dq)) in *. set (h := (1 + g) * (1 + e)). assert (Hh : 255 / 256 <= h <= 1 + / 2) by (unfold h; split; nra).
    replace (w / m * (1 + g) * (1 + e)) with (w / m * h) by (unfold h; ring).
    assert (W1 : w / 255 <= w / m) by (apply Rmult_le_compat_l; [lra|apply Rinv_le; lra]).
    assert (W2 : w / m <= w / 3) by (apply Rmult_le_compat_l; [lra|apply Rinv_le; lra]). set (v := w / m) in *. split.
    - apply Rle_trans with (/ 256 * w); [|nra]. apply Rle_trans with (/ 256 * bpow radix2 (-100)); [|lra]. change (/ 256) with (bpow radix2 (-8)).
      rewrite <- bpow_plus. apply bpow_le. lia.
    - apply Rle_trans with (w * 1); [nra|]. rewrite Rmult_1_r. apply Rle_trans with (bpow radix2 88); [lra|]. apply bpow_le. lia. }
  assert (QZ : forall i, (i < n)%nat -> quantizable scale (elem_at din inm i)).
  { intros i Hi. split; [apply HD; auto|]. destruct HR as (_ & _ & HR). pose proof (config_fits dq lo hi (val (elem_at din inm i)) Hq I1 I2 HB' H0 (HR i Hi)) as F.
    cbv zeta in F. rewrite <- Vs in F. pose proof (scaled_rel scale (val (elem_at din inm i)) Hs) as SR. set (t := val (elem_at din inm i) / val scale) in *.
    assert (B1 : (Rabs (IZR (0 - config_zp dq lo hi)) <= IZR 255)%R) by (apply abs_IZR_le; lia). apply Rabs_le_inv in B1.
    assert (B2 : (Rabs (IZR (code_max dq - config_zp dq lo hi)) <= IZR 255)%R) by (apply abs_IZR_le; lia). apply Rabs_le_inv in B2.
    assert (Tt : Rabs t <= 256) by (apply Rabs_le; lra). destruct tiny_small as [_ T2]. set (y := scaled _ _) in *.
    assert (D : Rabs (y - t) <= 1) by (unfold u32r in SR; lra). apply Rabs_le_inv in Tt. apply Rabs_le_inv in D.
    apply Rle_lt_trans with 300; [apply Rabs_le; lra|]. change (bpow radix2 30) with 1073741824. lra. }
  assert (Hz22 : (Z.abs (config_zp dq lo hi) <= 2 ^ 22)%Z) by lia.
  destruct (quantize_near A nt oaddr din dq scale (config_zp dq lo hi) thr inm pk (Ok p) HBu (normal_good _ Hs) Hz22) as (p2 & E & HL2 & Hb2 & HC2); auto.
  injection E as <-. fold n in HC2.
  assert (HF : full_range dq p n).
  { destruct HR as ((i & Hi & Ei) & (j & Hj & Ej) & _). split; [exists i|exists j]; split; auto.
    - destruct (HC2 i Hi) as (c & -> & Hc). rewrite Ei in Hc. apply (end_codes dq lo hi scale c); auto.
    - destruct (HC2 j Hj) as (c & -> & Hc). rewrite Ej in Hc. apply (end_codes dq lo hi scale c); auto. }
  split; auto. 
  destruct (C61_repeated_trips dq n k scale (config_zp dq lo hi) p scale' zp' p' Hq Hk Fs MS Z) as (R1 & R2 & R3 & R4 & R5 & R6); auto.
  rewrite HL2, HLp. reflexivity.
Qed.

(** Without [zero_off_tie] it FAILS, for the commonest data of all: a range symmetric about 0 puts zero exactly halfway between two codes.  {-1, 1}
    with uint4: -1 gets code 1 instead of 0, and each of the next trips shrinks the data by a step: 1 comes back as 0.933, then 0.871, then 0.813
    (and the symmetry is lost: -1 is -0.929 by then). *)
Definition symmetric_data : mem := le_bytes 4 0xBF800000 ++ le_bytes 4 0x3F800000.

Lemma config_bits2 A m K z : bind (compute_quant_config_from_data A DT_F32 DT_UINT4 m [(0, 2)%nat]) (fun c => Ok (bits_of_f32 (fst c), snd c)) = Ok (K, z) ->
  compute_quant_config_from_data A DT_F32 DT_UINT4 m [(0, 2)%nat] = Ok (f32_of_bits K, z).
Proof.
  destruct (compute_quant_config_from_data A DT_F32 DT_UINT4 m [(0, 2)%nat]) as [[s z']| |]; cbn; try discriminate. intros E. injection E as <- <-.
  do 2 f_equal. symmetry. apply (binary_float_of_bits_of_binary_float 23 8 eq_refl eq_refl eq_refl).
Qed.

Theorem C61_symmetric_refuted A : A <> SSE42 -> exists scale zp p o scale' zp' p' o',
  val (f32_at symmetric_data 0) = -1 /\ val (f32_at symmetric_data 1) = 1 /\
  compute_quant_config_from_data A DT_F32 DT_UINT4 symmetric_data [(0, 2)%nat] = Ok (scale, zp) /\
  returns symmetric_data [0%Z] (quantize_call A 1 0 DT_F32 DT_UINT4 scale zp RM_NEAREST f_zero symmetric_data [0%Z]) (Ok p) /\
  returns (p ++ [0%Z]) (repeat 0%Z 8) (dequantize_call A 1 0 DT_UINT4 DT_F32 scale zp RO_SET (length p) (repeat 0%Z 8)) (Ok o) /\
  trips DT_UINT4 2 2 (scale, zp, p) (scale', zp', p') /\
  returns (p' ++ [0%Z]) (repeat 0%Z 8) (dequantize_call A 1 0 DT_UINT4 DT_F32 scale' zp' RO_SET (length p') (repeat 0%Z 8)) (Ok o') /\
  code_at DT_UINT4 p 0 = 1%Z /\ code_at DT_UINT4 p' 0 = 0%Z /\
  93 / 100 < val (f32_at o 1) < 94 / 100 /\ 81 / 100 < val (f32_at o' 1) < 82 / 100 /\ -93 / 100 < val (f32_at o' 0) < -92 / 100.
Proof.
  intros HA.
  assert (B : block_cover 2 [(0, 2)%nat]).
  { split; [intros b [<-|[]]; cbn; lia|]. intros t Ht. exists (0, 2)%nat. split; [left; auto|cbn; lia]. }
  assert (HS : sizes_ok (4 * 2) 2 1) by (unfold sizes_ok; lia).
  assert (T : forall s z p o s' z' p', 
    match dequantize_call A 1 0 DT_UINT4 DT_F32 s z RO_SET (length p) (repeat 0%Z 8) with Ok [l] => run_trace (p ++ [0%Z]) l (repeat 0%Z 8) | _ => Abort end = Ok o ->
    compute_quant_config_from_data A DT_F32 DT_UINT4 o [(0, 2)%nat] = Ok (s', z') ->
    match quantize_call A 1 0 DT_F32 DT_UINT4 s' z' RM_NEAREST f_zero o [0%Z] with Ok [l] => run_trace o l [0%Z] | _ => Abort end = Ok p' ->
    trip DT_UINT4 2 (s, z, p) (s', z', p')).
  { intros s z p o s' z' p' H1 H2 H3. apply returns_one in H1. apply returns_one in H3.
    apply (Trip DT_UINT4 2 A 1 0 A [(0, 2)%nat] A 1 0 f_zero [0%Z] (repeat 0%Z 8) o [0%Z] s z p s' z' p'); auto; try discriminate; try reflexivity.
    - repeat constructor; unfold is_byte; lia.
    - repeat constructor; unfold is_byte; lia. }
  exists (f32_of_bits 0x3e088889), 8%Z, [241%Z], (le_bytes 4 0xbf6eeef0 ++ le_bytes 4 0x3f6eeef0).
  exists (f32_of_bits 0x3deddf15), 8%Z, [240%Z], (le_bytes 4 0xbf6ddf15 ++ le_bytes 4 0x3f502332).
  split; [unfold val; cbn; unfold F2R; cbn; lra|]. split; [unfold val; cbn; unfold F2R; cbn; lra|].
  split; [apply config_bits2; destruct A; vm_compute; reflexivity|].
  split; [one_job A|]. split; [one_job A|].
  split.
  { apply (MoreTrips _ _ 1 _ (f32_of_bits 0x3dfedcbc, 8%Z, [241%Z])); [apply (MoreTrips _ _ 0 _ (f32_of_bits 0x3e088889, 8%Z, [241%Z])); [constructor|]|].
    - apply (T _ _ _ (le_bytes 4 0xbf6eeef0 ++ le_bytes 4 0x3f6eeef0)); [destruct A; vm_compute; reflexivity| |destruct A; vm_compute; reflexivity].
      apply config_bits2; destruct A; vm_compute; reflexivity.
    - apply (T _ _ _ (le_bytes 4 0xbf5f0124 ++ le_bytes 4 0x3f5f0124)); [destruct A; vm_compute; reflexivity| |destruct A; vm_compute; reflexivity].
      apply config_bits2; destruct A; vm_compute; reflexivity. }
  split; [one_job A|]. split; [reflexivity|]. split; [reflexivity|].
  split; [unfold val; cbn; unfold F2R; cbn; lra|]. split; unfold val; cbn; unfold F2R; cbn; lra.
Qed.

(** Any number of trips (up to a million) is possible from any such tensor: the hypotheses above are never vacuous. *)
Theorem C61_trips_possible d n k scale zp p (A a : arch) : quant_type d -> (Z.of_nat k <= 2 ^ 20)%Z ->
  finite scale -> bpow radix2 (-109) <= val scale <= bpow radix2 89 -> (0 <= zp <= code_max d)%Z ->
  length p = bytes_for d n -> Forall is_byte p -> full_range d p n -> (Z.of_nat n < 2 ^ 59)%Z -> a <> SSE42 ->
  exists scale' zp' p', trips d n k (scale, zp, p) (scale', zp', p').
Proof.
  intros Hq Hk Fs BS Hz HLp Hb HF Hn Ha. induction k as [|k IH].
  - exists scale, zp, p. constructor.
  - destruct (IH ltac:(lia)) as (s1 & z1 & p1 & T). clear IH.
    assert (Hk1 : (Z.of_nat k <= 2 ^ 20)%Z) by lia.
    destruct (C61_repeated_trips d n k scale zp p s1 z1 p1 Hq Hk1 Fs BS Hz HLp Hb HF T) as (-> & F1 & D1 & L1 & B1 & C1).
    assert (Hk' : INR k * bpow radix2 (-21) <= / 2).
    { change (bpow radix2 (-21)) with (/ 2097152). assert (INR k <= 1048576) by (rewrite INR_IZR_INZ; apply (IZR_le _ (2 ^ 20)); lia). lra. }
    pose proof (pos_INR k) as Pk. pose proof (bpow_gt_0 radix2 (-109)) as P0. destruct BS as [BL BU]. apply Rabs_le_inv in D1.
    assert (0 <= INR k * bpow radix2 (-21)) by (apply Rmult_le_pos; auto; apply bpow_ge_0). set (x := INR k * bpow radix2 (-21)) in *.
    assert (Hs1 : / 2 * val scale <= val s1 <= 2 * val scale) by (split; nra).
    assert (Hm1 : moderate_scale s1).
    { split; auto. split.
      - apply Rle_trans with (/ 2 * bpow radix2 (-109)); [|lra]. change (/ 2) with (bpow radix2 (-1)). rewrite <- bpow_plus. apply bpow_le. lia.
      - apply Rle_trans with (2 * bpow radix2 89); [lra|]. change 2 with (bpow radix2 1). rewrite <- bpow_plus. apply bpow_le. lia. }
    assert (HS : sizes_ok (4 * n) n 1) by (unfold sizes_ok; lia).
    assert (Hn0 : (0 < n)%nat) by (destruct HF as ((i & Hi & _) & _); lia).
    assert (BC : block_cover n [(0, n)%nat]).
    { split; [intros b [<-|[]]; cbn; lia|]. intros t Ht. exists (0, n)%nat. split; [left; auto|cbn; lia]. }
    assert (LP1 : length p1 = bytes_for d n) by congruence.
    assert (Z0 : forall m, Forall is_byte (repeat 0%Z m)) by (intros m; apply Forall_forall; intros x0 Hx; apply repeat_spec in Hx; subst; unfold is_byte; lia).
    destruct (C61_trip_completes d n s1 zp p1 A 1 0 a [(0, n)%nat] A 1 0 f_zero [0%Z] (repeat 0%Z (4 * n)) (repeat 0%Z (bytes_for d n)) Hq Hm1 Hz LP1 B1
      (full_range_ext d p p1 n C1 HF) (Z0 1%nat) ltac:(discriminate) (Z0 _) (repeat_length _ _) (repeat_length _ _) HS HS Ha BC) as (o & s2 & p2 & _ & _ & _ & TT).
    exists s2, zp, p2. exact (MoreTrips d n k _ _ _ T TT).
Qed.
