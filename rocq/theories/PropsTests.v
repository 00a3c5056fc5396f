(** PropsTests.v -- C56: accuracy of the fused call and of accumulating dequantization, and the acceptance tests of test/requant.cpp,
    test/dequant.cpp and test/quant_config.cpp for all data of their kind. *)
From Coq Require Import ZArith List Lia Bool Arith ZifyBool ZifyNat Reals Lra Psatz.
From Flocq Require Import Core Binary Bits Relative.
From Verif Require Import Base Floats Simd Dtypes Spec ApiSpec QuantKernels DequantKernels ExecFacts FloatFacts QuantFacts QuantKernelFacts
  QuantGenericFacts DequantFacts DequantGenericFacts QuantLanes Context ContextFacts Footprint QuantizeFacts DequantizeFacts Api PropsQuantize Schedule
  PropsMemory FloatFacts2 PropsDequantize PropsRoundTrip PathSpec PropsPaths RoundTripFacts PropsIdempotent MinMax MinMaxFacts ConfigSpec F64Facts ConfigFacts PropsConfig
  PropsRepresent Bf16Spec Bf16Facts FloatFacts3 PropsBf16 PropsDequantBf16 PropsBf16Zero PropsRoundTripTypes AnyInputSpec PropsAnyInput PropsAnyThreads PropsFusedAny.
Import ListNotations.
Local Open Scope R_scope.

(** ** One element *)
(** f32: the decoded value of the integer [m]. *)
Lemma decode_f32 scale m : normal_scale scale -> 0 < val scale -> (Z.abs m <= 255)%Z ->
  let v := fmul (f32_of_Z m) scale in finite v /\ Rabs (val v - IZR m * val scale) <= val scale * / 8192.
Proof.
  intros Hs Hp Hm v. destruct (dequant_value_ok scale 0 m Hs ltac:(lia)) as [F V]. unfold dequant_value in F, V. rewrite Z.sub_0_r in F, V. fold v in F, V. split; auto.
  pose proof (product_near scale m Hs) as P. rewrite <- V in P.
  assert (B3 : Rabs (IZR m) <= IZR 255) by (apply abs_IZR_le; lia).
  replace (val v - IZR m * val scale) with (val scale * (val v / val scale - IZR m)) by (field; lra). rewrite Rabs_mult, (Rabs_pos_eq (val scale)) by lra.
  apply Rmult_le_compat_l; [lra|]. unfold u32r in P. lra.
Qed.
Lemma bf16_of_ok x : finite x -> Rabs (val x) <= bpow radix2 120 -> let b := bf16_of_f32 x in
  (0 <= b < 65536)%Z /\ finite (bf16_to_f32 b) /\ val (bf16_to_f32 b) = RN16 (val x).
Proof.
  intros F B b. pose proof (C17_round_to_nearest_even x F) as H. cbv zeta in H. destruct H as (H0 & _ & H). split; auto.
  rewrite Rlt_bool_true in H; auto. apply Rle_lt_trans with (bpow radix2 120); [|apply bpow_lt; lia].
  apply abs_round_le_generic; auto with typeclass_instances. apply generic_format_bpow. unfold FLT_exp. lia.
Qed.
Lemma rounds_once_ok b z : rounds_once b z -> Rabs z <= bpow radix2 120 -> finite (bf16_to_f32 b) /\ val (bf16_to_f32 b) = RN16 z.
Proof.
  intros (_ & H) B. rewrite Rlt_bool_true in H; auto. apply Rle_lt_trans with (bpow radix2 120); [|apply bpow_lt; lia].
  apply abs_round_le_generic; auto with typeclass_instances. apply generic_format_bpow. unfold FLT_exp. lia.
Qed.
Lemma RN16_near z : Rabs (RN16 z - z) <= / 256 * Rabs z + bpow radix2 (-134).
Proof.
  destruct (RN16_err z) as (d & e & Hd & He & E). rewrite E. replace (z * (1 + d) + e - z) with (d * z + e) by ring.
  eapply Rle_trans; [apply Rabs_triang|]. rewrite Rabs_mult. pose proof (Rabs_pos z). apply Rplus_le_compat; auto. apply Rmult_le_compat_r; auto.
Qed.
Lemma RN32_near z : Rabs (RN32 z - z) <= u32r * Rabs z + tiny.
Proof.
  destruct (RN32_err z) as (d & e & Hd & He & E). rewrite E. replace (z * (1 + d) + e - z) with (d * z + e) by ring.
  eapply Rle_trans; [apply Rabs_triang|]. rewrite Rabs_mult. pose proof (Rabs_pos z). apply Rplus_le_compat; auto. apply Rmult_le_compat_r; auto.
Qed.

Lemma RN16_rel z : bpow radix2 (-126) <= Rabs z -> exists d, Rabs d <= / 256 /\ RN16 z = z * (1 + d).
Proof.
  intros H. destruct (relative_error_N_FLT_ex radix2 (-133) 8 ltac:(lia) (fun z => negb (Z.even z)) z) as (d & Hd & E).
  { exact H. }
  exists d. change (/ 2 * bpow radix2 (- (8) + 1)) with (/ 2 * / 128) in Hd. split; [lra|exact E].
Qed.

(** bf16, fused call: bf16(m) * bf16(scale) in bf16. *)
Lemma decode_fused_bf16 scale m : bf16_scale scale -> 0 < val scale -> (Z.abs m <= 255)%Z ->
  let v := bf16_mul (bf16_of_f32 (f32_of_Z m)) (bf16_of_f32 scale) in
  (0 <= v < 65536)%Z /\ finite (bf16_to_f32 v) /\ Rabs (val (bf16_to_f32 v) - IZR m * val scale) <= / 127 * Rabs (IZR m * val scale) + val scale * / 8192.
Proof.
  intros Hs Hp Hm v. destruct (f32_of_Z_exact m) as [Fm Vm]; [lia|].
  assert (B3 : Rabs (IZR m) <= IZR 255) by (apply abs_IZR_le; lia).
  assert (B120 : 65536 <= bpow radix2 100) by (change 65536 with (bpow radix2 16); apply bpow_le; lia).
  assert (B120' : bpow radix2 100 * 65536 <= bpow radix2 120) by (change 65536 with (bpow radix2 16); rewrite <- bpow_plus; apply bpow_le; lia).
  destruct (bf16_of_ok (f32_of_Z m) Fm) as (Ra & Fa & Va); [rewrite Vm; lra|].
  destruct Hs as (Fs & Ls & Us). rewrite (Rabs_pos_eq (val scale)) in * by lra.
  destruct (bf16_of_ok scale Fs) as (Rb & Fb & Vb); [rewrite Rabs_pos_eq; lra|].
  assert (Em : val (bf16_to_f32 (bf16_of_f32 (f32_of_Z m))) = IZR m).
  { rewrite Va, Vm. apply RN16_fmt. apply generic_format_FLT. exists (Float radix2 m 0); [unfold F2R; cbn [Fnum Fexp bpow]; lra|cbn [Fnum]; change (radix2 ^ 8)%Z with 256%Z; lia|cbn [Fexp]; lia]. }
  pose proof (C37_mul _ _ Ra Rb Fa Fb) as M. rewrite Em, Vb in M. fold v in M.
  assert (T134 : bpow radix2 (-134) <= val scale * / 16384).
  { replace (bpow radix2 (-134)) with (bpow radix2 (-120) * / 16384) by (change (/ 16384) with (bpow radix2 (-14)); rewrite <- bpow_plus; reflexivity). apply Rmult_le_compat_r; lra. }
  destruct (RN16_rel (val scale)) as (d1 & Hd1 & E1).
  { rewrite Rabs_pos_eq by lra. eapply Rle_trans; [|exact Ls]. apply bpow_le. lia. }
  rewrite E1 in M. set (s := val scale) in *. set (km := IZR m) in *. apply Rabs_le_inv in Hd1.
  assert (Z : Rabs (km * (s * (1 + d1))) <= bpow radix2 120).
  { rewrite !Rabs_mult. rewrite (Rabs_pos_eq s) by lra. rewrite (Rabs_pos_eq (1 + d1)) by lra.
    apply Rle_trans with (255 * (bpow radix2 100 * 2)); [|lra]. apply Rmult_le_compat; [apply Rabs_pos|nra|lra|]. apply Rmult_le_compat; lra. }
  destruct (rounds_once_ok _ _ M Z) as [Fv Vv]. split; [apply M|]. split; auto. rewrite Vv.
  destruct (RN16_err (km * (s * (1 + d1)))) as (d2 & e2 & Hd2 & He2 & E2). rewrite E2.
  replace (km * (s * (1 + d1)) * (1 + d2) + e2 - km * s) with (km * s * (d1 + d2 + d1 * d2) + e2) by ring.
  eapply Rle_trans; [apply Rabs_triang|]. apply Rplus_le_compat; [|lra].
  rewrite Rabs_mult, Rmult_comm. apply Rmult_le_compat_r; [apply Rabs_pos|]. apply Rabs_le_inv in Hd2. apply Rabs_le. nra.
Qed.

(** The value an element should hold afterwards, and the error allowed for computing and storing it: [rel] is the relative error of the decoded value. *)
Definition wanted (op : reduce_op) (old x : R) : R := match op with RO_SET => x | RO_ADD => old + x end.
Definition store_bound (dt : dtype) (op : reduce_op) (rel old x s : R) : R :=
  match dt, op with
  | DT_BF16, RO_SET => rel * (Rabs x + 2 * s)
  | DT_BF16, RO_ADD => rel * (Rabs x + 2 * s) + / 250 * (Rabs old + Rabs x + 2 * s) + bpow radix2 (-126)
  | _, RO_SET => 0
  | _, RO_ADD => / 8388608 * (Rabs old + Rabs x + 2 * s) + bpow radix2 (-126)
  end.

(** [v] is the decoded value of integer [m], [w] the stored value. *)
Lemma value_near m x s v rel K delta : 0 < s -> 0 <= rel <= / 127 -> / 2 <= K <= 1 -> 0 <= delta <= / 4 ->
  Rabs (IZR m - x / s) <= K + delta + / 19000 -> Rabs (v - IZR m * s) <= rel * Rabs (IZR m * s) + s * / 8192 ->
  Rabs (v - x) <= s * (K + delta + bpow radix2 (-12)) - s * / 20000 + rel * (Rabs x + 2 * s) /\ Rabs (IZR m * s) <= Rabs x + 2 * s.
Proof.
  intros Hs Hr HK Hd HM HV. change (bpow radix2 (-12)) with (/ 4096).
  assert (E1 : IZR m * s - x = s * (IZR m - x / s)) by (field; lra).
  assert (D1 : Rabs (IZR m * s - x) <= s * (K + delta + / 19000)).
  { rewrite E1, Rabs_mult, (Rabs_pos_eq s) by lra. apply Rmult_le_compat_l; lra. }
  assert (KS : s * (K + delta + / 19000) <= s * 2) by (apply Rmult_le_compat_l; lra).
  assert (B : Rabs (IZR m * s) <= Rabs x + 2 * s).
  { replace (IZR m * s) with (x + (IZR m * s - x)) by ring. eapply Rle_trans; [apply Rabs_triang|]. lra. }
  split; auto. replace (v - x) with ((v - IZR m * s) + (IZR m * s - x)) by ring. eapply Rle_trans; [apply Rabs_triang|].
  assert (rel * Rabs (IZR m * s) <= rel * (Rabs x + 2 * s)) by (apply Rmult_le_compat_l; lra).
  assert (s * (K + delta + / 4096) - s * / 20000 = s * (K + delta + / 19000) + s * (/ 4096 - / 20000 - / 19000)) as -> by field.
  assert (s * / 8192 <= s * (/ 4096 - / 20000 - / 19000)) by (apply Rmult_le_compat_l; lra). lra.
Qed.
Lemma add_near old x s v w rel K delta as_ ad : 0 < s -> 0 <= rel <= / 127 -> / 2 <= K <= 1 -> 0 <= delta <= / 4 -> 0 <= as_ ->
  Rabs (v - x) <= s * (K + delta + bpow radix2 (-12)) + rel * (Rabs x + 2 * s) ->
  Rabs (w - (old + v)) <= as_ * Rabs (old + v) + ad ->
  Rabs (w - (old + x)) <= s * (K + delta + bpow radix2 (-12)) + rel * (Rabs x + 2 * s) + as_ * (128 / 127) * (Rabs old + Rabs x + 2 * s) + ad /\
  Rabs (old + v) <= 128 / 127 * (Rabs old + Rabs x + 2 * s).
Proof.
  intros Hs Hr HK Hd Ha HV HW. change (bpow radix2 (-12)) with (/ 4096) in *. pose proof (Rabs_pos x) as Px. pose proof (Rabs_pos old) as Po.
  assert (KS : s * (K + delta + / 4096) <= s * (3 / 2)) by (apply Rmult_le_compat_l; lra).
  assert (R1 : rel * (Rabs x + 2 * s) <= / 127 * (Rabs x + 2 * s)) by (apply Rmult_le_compat_r; lra).
  assert (B : Rabs (old + v) <= 128 / 127 * (Rabs old + Rabs x + 2 * s)).
  { replace (old + v) with (old + (x + (v - x))) by ring. eapply Rle_trans; [apply Rabs_triang|]. pose proof (Rabs_triang x (v - x)). lra. }
  split; auto. replace (w - (old + x)) with ((w - (old + v)) + (v - x)) by ring. eapply Rle_trans; [apply Rabs_triang|].
  assert (as_ * Rabs (old + v) <= as_ * (128 / 127 * (Rabs old + Rabs x + 2 * s))) by (apply Rmult_le_compat_l; auto). lra.
Qed.

(** f32, both operations. *)
Lemma stored_f32_near op old scale m x K delta : normal_scale scale -> 0 < val scale -> / 2 <= K <= 1 -> 0 <= delta <= / 4 -> (Z.abs m <= 255)%Z ->
  (op = RO_ADD -> finite old /\ Rabs (val old) <= bpow radix2 120) -> Rabs (IZR m - x / val scale) <= K + delta + / 19000 ->
  let v := fmul (f32_of_Z m) scale in let w := match op with RO_SET => v | RO_ADD => fadd old v end in
  finite w /\ Rabs (val w - wanted op (val old) x) <= val scale * (K + delta + bpow radix2 (-12)) + store_bound DT_F32 op 0 (val old) x (val scale).
Proof.
  intros Hs Hp HK Hd Hm Ho HM v w. destruct (decode_f32 scale m Hs Hp Hm) as [Fv Nv]. fold v in Fv, Nv.
  destruct (value_near m x (val scale) (val v) 0 K delta Hp ltac:(lra) HK Hd HM ltac:(lra)) as [V1 V2]. rewrite Rmult_0_l in V1.
  assert (S0 : 0 < val scale * / 20000) by lra.
  destruct op; cbn [wanted store_bound] in *; [split; auto; unfold w; lra|]. destruct (Ho eq_refl) as [Fo Bo].
  assert (Bm : Rabs (IZR m * val scale) <= 255 * bpow radix2 100).
  { rewrite Rabs_mult. apply Rmult_le_compat; try apply Rabs_pos; [apply (abs_IZR_le m 255); lia|apply Hs]. }
  assert (B100 : 1024 * bpow radix2 100 <= bpow radix2 120) by (change 1024 with (bpow radix2 10); rewrite <- bpow_plus; apply bpow_le; lia).
  assert (Us : val scale <= bpow radix2 100) by (destruct Hs as (_ & _ & U); rewrite Rabs_pos_eq in U; lra).
  assert (Bv : Rabs (val v) <= bpow radix2 120).
  { replace (val v) with (IZR m * val scale + (val v - IZR m * val scale)) by ring. eapply Rle_trans; [apply Rabs_triang|]. lra. }
  assert (OV : Rabs (RN32 (val old + val v)) < max32).
  { apply Rle_lt_trans with (bpow radix2 121); [|unfold max32; apply bpow_lt; lia]. apply abs_round_le_generic; auto with typeclass_instances.
    - apply generic_format_bpow. unfold FLT_exp. lia.
    - eapply Rle_trans; [apply Rabs_triang|]. change 121%Z with (1 + 120)%Z. rewrite bpow_plus. change (bpow radix2 1) with 2. lra. }
  destruct (fadd_ok old v Fo Fv OV) as [Fw Vw]. fold w in Fw, Vw. split; auto.
  pose proof (RN32_near (val old + val v)) as NR. rewrite <- Vw in NR.
  destruct (add_near (val old) x (val scale) (val v) (val w) 0 K delta u32r tiny Hp ltac:(lra) HK Hd ltac:(unfold u32r; lra) ltac:(lra) NR) as [W _].
  assert (T : tiny <= bpow radix2 (-126)) by (apply bpow_le; lia). unfold u32r in W. rewrite Rmult_0_l in W.
  pose proof (Rabs_pos x). pose proof (Rabs_pos (val old)). lra.
Qed.

(** bf16: storing or adding a decoded bf16 value with the operators of bfp16_t. *)
Lemma stored_bf16_near op old scale m v x K delta rel : bf16_scale scale -> 0 < val scale -> 0 <= rel <= / 127 -> / 2 <= K <= 1 -> 0 <= delta <= / 4 -> (Z.abs m <= 255)%Z ->
  (0 <= v < 65536)%Z -> (op = RO_ADD -> (0 <= old < 65536)%Z /\ finite (bf16_to_f32 old) /\ Rabs (val (bf16_to_f32 old)) <= bpow radix2 119) ->
  finite (bf16_to_f32 v) -> Rabs (val (bf16_to_f32 v) - IZR m * val scale) <= rel * Rabs (IZR m * val scale) + val scale * / 8192 ->
  Rabs (IZR m - x / val scale) <= K + delta + / 19000 ->
  let w := match op with RO_SET => v | RO_ADD => bf16_add old v end in
  finite (bf16_to_f32 w) /\ Rabs (val (bf16_to_f32 w) - wanted op (val (bf16_to_f32 old)) x) <= val scale * (K + delta + bpow radix2 (-12)) + store_bound DT_BF16 op rel (val (bf16_to_f32 old)) x (val scale).
Proof.
  intros Hs Hp Hr HK Hd Hm Rv Ho Fv Nv HM w.
  destruct (value_near m x (val scale) (val (bf16_to_f32 v)) rel K delta Hp Hr HK Hd HM Nv) as [V1 V2].
  assert (S0 : 0 < val scale * / 20000) by lra.
  destruct op; cbn [wanted store_bound] in *; [split; auto; unfold w; lra|]. destruct (Ho eq_refl) as (Ro & Fo & Bo).
  assert (Us : val scale <= bpow radix2 100) by (destruct Hs as (_ & _ & U); rewrite Rabs_pos_eq in U; lra).
  assert (Bm : Rabs (IZR m * val scale) <= 255 * bpow radix2 100).
  { rewrite Rabs_mult. apply Rmult_le_compat; try apply Rabs_pos; [apply (abs_IZR_le m 255); lia|rewrite Rabs_pos_eq; lra]. }
  assert (B100 : 1024 * bpow radix2 100 <= bpow radix2 119) by (change 1024 with (bpow radix2 10); rewrite <- bpow_plus; apply bpow_le; lia).
  assert (rel * Rabs (IZR m * val scale) <= / 127 * Rabs (IZR m * val scale)) by (apply Rmult_le_compat_r; [apply Rabs_pos|lra]).
  assert (Bv : Rabs (val (bf16_to_f32 v)) <= bpow radix2 119).
  { replace (val (bf16_to_f32 v)) with (IZR m * val scale + (val (bf16_to_f32 v) - IZR m * val scale)) by ring. eapply Rle_trans; [apply Rabs_triang|]. pose proof (Rabs_pos (IZR m * val scale)). lra. }
  assert (OV : Rabs (val (bf16_to_f32 old) + val (bf16_to_f32 v)) <= bpow radix2 120).
  { eapply Rle_trans; [apply Rabs_triang|]. change 120%Z with (1 + 119)%Z. rewrite bpow_plus. change (bpow radix2 1) with 2. lra. }
  destruct (rounds_once_ok _ _ (C37_add old v Ro Rv Fo Fv) OV) as [Fw Vw]. fold w in Fw, Vw. split; auto.
  pose proof (RN16_near (val (bf16_to_f32 old) + val (bf16_to_f32 v))) as NR. rewrite <- Vw in NR.
  destruct (add_near (val (bf16_to_f32 old)) x (val scale) (val (bf16_to_f32 v)) (val (bf16_to_f32 w)) rel K delta (/ 256) (bpow radix2 (-134)) Hp Hr HK Hd ltac:(lra) ltac:(lra) NR) as [W _].
  assert (T : bpow radix2 (-134) <= bpow radix2 (-126)) by (apply bpow_le; lia).
  pose proof (Rabs_pos x). pose proof (Rabs_pos (val (bf16_to_f32 old))). lra.
Qed.
(** bf16, AVX-512 loops: the f32 sum is converted once. *)
Lemma stored_bf16_vec_near A d old scale zp q x K delta : bf16_scale scale -> 0 < val scale -> / 2 <= K <= 1 -> 0 <= delta <= / 4 -> (0 <= zp <= 255)%Z -> (0 <= q <= 255)%Z ->
  finite (bf16_to_f32 old) -> Rabs (val (bf16_to_f32 old)) <= bpow radix2 118 ->
  Rabs (IZR (q - zp) - x / val scale) <= K + delta + / 19000 ->
  let w := bf16_convert A true (fadd (bf16_source d true scale zp q) (bf16_to_f32 old)) in
  finite (bf16_to_f32 w) /\ Rabs (val (bf16_to_f32 w) - (val (bf16_to_f32 old) + x)) <= val scale * (K + delta + bpow radix2 (-12)) + store_bound DT_BF16 RO_ADD (/ 256) (val (bf16_to_f32 old)) x (val scale).
Proof.
  intros Hs Hp HK Hd Hz Hq Fo Bo HM w. destruct (source_near d true scale zp q Hs Hz Hq) as (Fv & Nv & _). set (v := bf16_source d true scale zp q) in *.
  change (bpow radix2 (-15)) with (/ 32768) in Nv.
  assert (Nv' : Rabs (val v - IZR (q - zp) * val scale) <= 0 * Rabs (IZR (q - zp) * val scale) + val scale * / 8192).
  { replace (val v - IZR (q - zp) * val scale) with (val scale * (val v / val scale - IZR (q - zp))) by (field; lra). rewrite Rabs_mult, (Rabs_pos_eq (val scale)) by lra.
    rewrite Rmult_0_l, Rplus_0_l. apply Rmult_le_compat_l; lra. }
  destruct (value_near (q - zp) x (val scale) (val v) 0 K delta Hp ltac:(lra) HK Hd HM Nv') as [V1 V2]. rewrite Rmult_0_l in V1.
  assert (S0 : 0 < val scale * / 20000) by lra. set (o := bf16_to_f32 old) in *.
  assert (Us : val scale <= bpow radix2 100) by (destruct Hs as (_ & _ & U); rewrite Rabs_pos_eq in U; lra).
  assert (Bm : Rabs (IZR (q - zp) * val scale) <= 255 * bpow radix2 100).
  { rewrite Rabs_mult. apply Rmult_le_compat; try apply Rabs_pos; [apply (abs_IZR_le (q - zp) 255); lia|rewrite Rabs_pos_eq; lra]. }
  assert (B100 : 1024 * bpow radix2 100 <= bpow radix2 118) by (change 1024 with (bpow radix2 10); rewrite <- bpow_plus; apply bpow_le; lia).
  assert (Bv : Rabs (val v) <= bpow radix2 118).
  { replace (val v) with (IZR (q - zp) * val scale + (val v - IZR (q - zp) * val scale)) by ring. eapply Rle_trans; [apply Rabs_triang|]. lra. }
  assert (BS : Rabs (val v + val o) <= bpow radix2 119).
  { eapply Rle_trans; [apply Rabs_triang|]. change 119%Z with (1 + 118)%Z. rewrite bpow_plus. change (bpow radix2 1) with 2. lra. }
  assert (BR : Rabs (RN32 (val v + val o)) <= bpow radix2 119).
  { apply abs_round_le_generic; auto with typeclass_instances. apply generic_format_bpow. unfold FLT_exp. lia. }
  destruct (fadd_ok v o Fv Fo) as [Fs' Vs'].
  { eapply Rle_lt_trans; [exact BR|]. unfold max32. apply bpow_lt. lia. }
  set (t := fadd v o) in *. assert (B120 : bpow radix2 119 <= bpow radix2 120) by (apply bpow_le; lia).
  destruct (convert_ok A true t Fs' ltac:(rewrite Vs'; lra)) as [Fw Hw]. fold w in Fw, Hw. split; auto.
  pose proof (RN32_near (val v + val o)) as N1. rewrite <- Vs' in N1. unfold u32r in N1.
  assert (T1 : tiny <= bpow radix2 (-126) * / 1024) by (unfold tiny; change (/ 1024) with (bpow radix2 (-10)); rewrite <- bpow_plus; apply bpow_le; lia).
  assert (T2 : bpow radix2 (-134) = bpow radix2 (-126) * / 256) by (change (/ 256) with (bpow radix2 (-8)); rewrite <- bpow_plus; reflexivity).
  pose proof (bpow_gt_0 radix2 (-126)) as P126.
  assert (NW : Rabs (val (bf16_to_f32 w) - (val o + val v)) <= / 255 * Rabs (val o + val v) + bpow radix2 (-126)).
  { rewrite (Rplus_comm (val o)). set (z := val v + val o) in *. destruct Hw as [Vw|[Lw Vw]]; rewrite Vw.
    - pose proof (RN16_near (val t)) as N2. rewrite T2 in N2.
      assert (Bt : Rabs (val t) <= Rabs z + (/ 16777216 * Rabs z + tiny)).
      { replace (val t) with (z + (val t - z)) by ring. eapply Rle_trans; [apply Rabs_triang|]. lra. }
      replace (RN16 (val t) - z) with ((RN16 (val t) - val t) + (val t - z)) by ring. eapply Rle_trans; [apply Rabs_triang|]. pose proof (Rabs_pos z). lra.
    - assert (Bt : Rabs z <= bpow radix2 (-126) + (/ 16777216 * Rabs z + tiny)).
      { replace z with (val t + - (val t - z)) at 1 by ring. eapply Rle_trans; [apply Rabs_triang|]. rewrite Rabs_Ropp. lra. }
      replace (0 - z) with (- z) by ring. rewrite Rabs_Ropp. pose proof (Rabs_pos z). lra. }
  destruct (add_near (val o) x (val scale) (val v) (val (bf16_to_f32 w)) 0 K delta (/ 255) (bpow radix2 (-126)) Hp ltac:(lra) HK Hd ltac:(lra) ltac:(lra) NW) as [W _].
  cbn [store_bound]. pose proof (Rabs_pos x). pose proof (Rabs_pos (val o)). lra.
Qed.

(** ** The calls *)
Lemma expected_near rm dq scale zp thr x : quant_type dq -> (rm = RM_STOCHASTIC -> threshold thr) ->
  exists k, expected_code rm dq scale zp thr x = clamp 0 (code_max dq) (k + zp) /\ Rabs (IZR k - scaled (val scale) (val x)) <= code_error rm + bpow radix2 (-25).
Proof.
  intros Hq Ht. pose proof (bpow_gt_0 radix2 (-25)). destruct rm; cbn [expected_code code_error].
  - exists (round_half_away (scaled (val scale) (val x))). split; [reflexivity|]. pose proof (rha_error (scaled (val scale) (val x))). lra.
  - exists (stoch_round (val thr) (scaled (val scale) (val x))). split; [reflexivity|]. pose proof (stoch_error (val thr) (scaled (val scale) (val x)) (proj1 (proj2 (Ht eq_refl)))). lra.
Qed.
(** Old contents to which a value can be added without overflow. *)
Definition old_ok (dt : dtype) (outm : mem) (n : nat) : Prop := forall i, (i < n)%nat -> finite (elem_at dt outm i) /\ Rabs (val (elem_at dt outm i)) <= bpow radix2 118.
(** Relative error of a value decoded by the fused call resp. by dequantize. *)
Definition fused_rel (dt : dtype) : R := match dt with DT_BF16 => / 127 | _ => 0 end.
Definition dequant_rel (dt : dtype) : R := match dt with DT_BF16 => / 256 | _ => 0 end.

Lemma fused_near A nt oaddr dt dq scale zp rm op thr inm outm r delta :
  let n := numel dt (length outm) in
  float_type dt -> quant_type dq -> length inm = length outm -> sizes_ok (length outm) n nt -> Forall is_byte outm ->
  out_scale dt scale -> 0 < val scale -> (0 <= zp <= code_max dq)%Z -> (rm = RM_STOCHASTIC -> threshold thr) -> 0 <= delta <= / 4 ->
  (forall i, (i < n)%nat -> quantizable scale (elem_at dt inm i)) -> (op = RO_ADD -> old_ok dt outm n) ->
  returns inm outm (fused_call A nt oaddr dt dq scale zp rm op thr inm outm) r ->
  exists o, r = Ok o /\ length o = length outm /\ (dt = DT_BF16 -> forall i, (i < n)%nat -> (0 <= bf16_at o i < 65536)%Z) /\
    forall i, (i < n)%nat -> let x := val (elem_at dt inm i) in
      IZR (0 - zp) - / 2 - delta <= x / val scale <= IZR (code_max dq - zp) + / 2 + delta ->
      finite (elem_at dt o i) /\
      Rabs (val (elem_at dt o i) - wanted op (val (elem_at dt outm i)) x) <=
        val scale * (code_error rm + delta + bpow radix2 (-12)) + store_bound dt op (fused_rel dt) (val (elem_at dt outm i)) x (val scale).
Proof.
  intros n Hfp Hq HL HS Hob Hs Hp Hz Ht Hd HX Ho HR. pose proof (code_max_range dq Hq) as Hm. pose proof (out_scale_normal _ _ Hs) as Hsn.
  assert (Hz62 : (Z.abs zp <= 2 ^ 62)%Z) by (clear - Hz Hm; lia). assert (HK : / 2 <= code_error rm <= 1) by (destruct rm; cbn; lra).
  assert (B119 : bpow radix2 118 <= bpow radix2 119) by (apply bpow_le; lia). assert (B120 : bpow radix2 118 <= bpow radix2 120) by (apply bpow_le; lia).
  destruct Hfp as [->| ->].
  - destruct (C28_fused_f32 _ _ _ _ _ _ _ _ _ _ _ _ Hq HL HS (normal_good _ Hsn) Hz62 Ht HX HR) as (o & -> & Lo & HE & _). exists o. split; auto. split; auto. split; [discriminate|].
    intros i Hi x Hx. cbn [elem_at]. rewrite (f32_at_ld o), HE, ld_f32_bytes by auto.
    destruct (expected_near rm dq scale zp thr (f32_at inm i) Hq Ht) as (k & -> & K).
    destruct (steps_near dq scale zp x k delta (code_error rm) Hq Hsn Hp Hz Hd HK K Hx) as [M1 M2].
    apply stored_f32_near; auto. intros Eo. destruct (Ho Eo i Hi) as [F B]. split; auto. cbn [elem_at] in B. lra.
  - destruct (C28_fused_bf16 _ _ _ _ _ _ _ _ _ _ _ _ Hq HL HS (normal_good _ Hsn) Hz62 Ht HX HR) as (o & -> & Lo & HE & _). exists o. split; auto. split; auto.
    split; [intros _ i Hi; specialize (HE i Hi); cbv zeta in HE; rewrite HE; destruct op; apply (convert_range A false)|].
    intros i Hi x Hx. specialize (HE i Hi). cbv zeta in HE.
    change (elem_at DT_BF16 o i) with (bf16_to_f32 (bf16_at o i)). change (elem_at DT_BF16 outm i) with (bf16_to_f32 (bf16_at outm i)). rewrite HE.
    destruct (expected_near rm dq scale zp thr (elem_at DT_BF16 inm i) Hq Ht) as (k & -> & K).
    destruct (steps_near dq scale zp x k delta (code_error rm) Hq Hsn Hp Hz Hd HK K Hx) as [M1 M2].
    set (m := (clamp 0 (code_max dq) (k + zp) - zp)%Z) in *. destruct (decode_fused_bf16 scale m Hs Hp M1) as (R1 & F1 & N1).
    apply (stored_bf16_near op _ scale m); auto; [cbn; lra|]. intros Eo. destruct (Ho Eo i Hi) as [F B]. split; [apply bf16_at_range; auto|]. split; [exact F|]. change (elem_at DT_BF16 outm i) with (bf16_to_f32 (bf16_at outm i)) in B. lra.
Qed.

Lemma accumulate_near A nt oaddr A2 nt2 oaddr2 din dout dq scale zp rm thr inm pk p extra outm r delta :
  let n := numel dout (length outm) in
  buffers_ok nt din dq inm pk -> float_type dout -> numel din (length inm) = n -> sizes_ok (length outm) n nt2 -> Forall is_byte outm ->
  out_scale dout scale -> 0 < val scale ->
  (0 <= zp <= code_max dq)%Z -> (rm = RM_STOCHASTIC -> threshold thr) -> Forall is_byte extra -> extra <> [] -> 0 <= delta <= / 4 ->
  (forall i, (i < n)%nat -> quantizable scale (elem_at din inm i)) -> old_ok dout outm n ->
  returns inm pk (quantize_call A nt oaddr din dq scale zp rm thr inm pk) (Ok p) ->
  returns (p ++ extra) outm (dequantize_call A2 nt2 oaddr2 dq dout scale zp RO_ADD (length p) outm) r ->
  exists o, r = Ok o /\ length o = length outm /\ (dout = DT_BF16 -> forall i, (i < n)%nat -> (0 <= bf16_at o i < 65536)%Z) /\
    forall i, (i < n)%nat -> let x := val (elem_at din inm i) in
      let op := match dout with DT_F32 => reaches dq RO_ADD n i | _ => RO_ADD end in
      IZR (0 - zp) - / 2 - delta <= x / val scale <= IZR (code_max dq - zp) + / 2 + delta ->
      finite (elem_at dout o i) /\
      Rabs (val (elem_at dout o i) - wanted op (val (elem_at dout outm i)) x) <=
        val scale * (code_error rm + delta + bpow radix2 (-12)) + store_bound dout op (dequant_rel dout) (val (elem_at dout outm i)) x (val scale).
Proof.
  intros n HB Hdo Hn HS2 Hob Hs Hp Hz Ht He Hne Hdl HI Ho HQ HD. pose proof HB as (Hfp & Hq & Hb & Hl & HS1). pose proof (code_max_range dq Hq) as Hm.
  pose proof (out_scale_normal _ _ Hs) as Hsn.
  assert (Hz22 : (Z.abs zp <= 2 ^ 22)%Z) by (clear - Hz Hm; lia). assert (Hz30 : (Z.abs zp <= 2 ^ 30)%Z) by (clear - Hz Hm; lia).
  destruct (quantize_near_rm A nt oaddr din dq scale zp rm thr inm pk (Ok p) HB (normal_good _ Hsn) Hz22 Ht) as (p' & E & HLp & Hby & HC); auto.
  { rewrite Hn. auto. }
  injection E as <-. rewrite Hn in HC.
  destruct (packed_buffers nt nt2 din dout dq inm pk p extra outm HB Hdo HLp Hby He Hne ltac:(rewrite Hn; reflexivity) HS2) as [HB' HCe]. rewrite Hn in HCe.
  assert (HK : / 2 <= code_error rm <= 1) by (destruct rm; cbn; lra).
  assert (B119 : bpow radix2 118 <= bpow radix2 119) by (apply bpow_le; lia). assert (B120 : bpow radix2 118 <= bpow radix2 120) by (apply bpow_le; lia).
  destruct Hdo as [-> | ->].
  - destruct (dequantize_f32 _ _ _ _ _ _ _ _ _ _ _ HB' Hz30 (fun _ => proj1 Hsn) HD) as (o & -> & Lo & HE & _). fold n in HE. exists o. split; auto. split; auto. split; [discriminate|].
    intros i Hi x op Hx. destruct (HC i Hi) as (k & C & K). cbn [elem_at]. rewrite (f32_at_ld o), HE, ld_f32_bytes by auto. fold op. rewrite HCe, C by auto.
    destruct (steps_near dq scale zp x k delta (code_error rm) Hq Hsn Hp Hz Hdl HK K Hx) as [M1 M2]. unfold dequant_value.
    apply stored_f32_near; auto. intros Eo. destruct (Ho i Hi) as [F B]. split; auto. cbn [elem_at] in B. lra.
  - destruct (C08_dequantize_add_bf16 _ _ _ _ _ _ _ _ _ _ HB' Hz22 Hob HD) as (o & -> & Lo & HE & _). fold n in HE. exists o. split; auto. split; auto.
    split; [intros _ i Hi; specialize (HE i Hi); cbv zeta in HE; rewrite HE; destruct (bf16_vector_path A2 dq n nt2 i); [apply convert_range|apply (convert_range A2 false)]|].
    intros i Hi x op Hx. destruct (HC i Hi) as (k & C & K). specialize (HE i Hi). cbv zeta in HE. rewrite HCe, C in HE by auto. unfold op. cbn [wanted].
    change (elem_at DT_BF16 o i) with (bf16_to_f32 (bf16_at o i)). change (elem_at DT_BF16 outm i) with (bf16_to_f32 (bf16_at outm i)). rewrite HE.
    destruct (steps_near dq scale zp x k delta (code_error rm) Hq Hsn Hp Hz Hdl HK K Hx) as [M1 M2].
    set (q := clamp 0 (code_max dq) (k + zp)) in *. assert (Hqr : (0 <= q <= 255)%Z) by (unfold q, clamp; lia).
    destruct (Ho i Hi) as [Fo Bo]. change (elem_at DT_BF16 outm i) with (bf16_to_f32 (bf16_at outm i)) in Fo, Bo.
    destruct (bf16_vector_path A2 dq n nt2 i).
    + apply stored_bf16_vec_near; auto. lia.
    + destruct (bf16_near A2 dq false scale zp q Hs ltac:(lia) ltac:(lia)) as [F1 N1]. cbn [bf16_convert] in F1, N1.
      pose proof (stored_bf16_near RO_ADD (bf16_at outm i) scale (q - zp) (bf16_of_f32 (bf16_source dq false scale zp q)) x (code_error rm) delta (/ 256) Hs Hp ltac:(lra) HK Hdl M1) as G. cbv zeta in G. cbn [wanted] in G.
      cbn [dequant_rel]. apply G; auto.
      * apply (convert_range A2 false).
      * intros _. split; [apply bf16_at_range; auto|]. split; auto. lra.
      * unfold bf16_convert in N1. set (w := val (bf16_to_f32 (bf16_of_f32 (bf16_source dq false scale zp q)))) in *. change (bpow radix2 (-13)) with (/ 8192) in N1.
        replace (w - IZR (q - zp) * val scale) with (val scale * (w / val scale - IZR (q - zp))) by (field; lra). rewrite !Rabs_mult, (Rabs_pos_eq (val scale)) by lra.
        replace (/ 256 * (Rabs (IZR (q - zp)) * val scale) + val scale * / 8192) with (val scale * (/ 256 * Rabs (IZR (q - zp)) + / 8192)) by ring. apply Rmult_le_compat_l; lra.
Qed.

(** ** C56, accuracy.  A value inside the representable range, quantized and decoded by the fused call, or by quantize and dequantize(add), ends up within
    half a step (nearest) or one step (stochastic) plus the stated storage error of where it should be. *)
Theorem C56_fused_accuracy A nt oaddr dt dq scale zp rm op thr inm outm r :
  let n := numel dt (length outm) in
  float_type dt -> quant_type dq -> length inm = length outm -> sizes_ok (length outm) n nt -> Forall is_byte outm ->
  out_scale dt scale -> 0 < val scale -> (0 <= zp <= code_max dq)%Z -> (rm = RM_STOCHASTIC -> threshold thr) ->
  (forall i, (i < n)%nat -> quantizable scale (elem_at dt inm i)) -> (op = RO_ADD -> old_ok dt outm n) ->
  returns inm outm (fused_call A nt oaddr dt dq scale zp rm op thr inm outm) r ->
  exists o, r = Ok o /\ length o = length outm /\
    forall i, (i < n)%nat -> let x := val (elem_at dt inm i) in
      IZR (0 - zp) * val scale <= x <= IZR (code_max dq - zp) * val scale ->
      finite (elem_at dt o i) /\
      Rabs (val (elem_at dt o i) - wanted op (val (elem_at dt outm i)) x) <=
        val scale * (match rm with RM_NEAREST => / 2 | RM_STOCHASTIC => 1 end + bpow radix2 (-12)) +
        store_bound dt op (match dt with DT_BF16 => / 127 | _ => 0 end) (val (elem_at dt outm i)) x (val scale).
Proof.
  intros n Hfp Hq HL HS Hob Hs Hp Hz Ht HX Ho HR.
  destruct (fused_near A nt oaddr dt dq scale zp rm op thr inm outm r 0 Hfp Hq HL HS Hob Hs Hp Hz Ht ltac:(lra) HX Ho HR) as (o & -> & Lo & _ & H). exists o. split; auto. split; auto.
  intros i Hi x [L U]. specialize (H i Hi). cbv zeta in H. fold x in H. rewrite !Rplus_0_r in H. destruct rm; apply H.
  all: assert (IZR (0 - zp) <= x / val scale <= IZR (code_max dq - zp)); [|lra];
    split; apply Rmult_le_reg_r with (val scale); auto; replace (x / val scale * val scale) with x by (field; lra); auto.
Qed.
(** (uint2 to f32: the last n mod 4 elements are overwritten instead, C08; [reaches] is RO_SET there.) *)
Theorem C56_accumulate_accuracy A nt oaddr A2 nt2 oaddr2 din dout dq scale zp rm thr inm pk p extra outm r :
  let n := numel dout (length outm) in
  buffers_ok nt din dq inm pk -> float_type dout -> numel din (length inm) = n -> sizes_ok (length outm) n nt2 -> Forall is_byte outm ->
  out_scale dout scale -> 0 < val scale -> (0 <= zp <= code_max dq)%Z -> (rm = RM_STOCHASTIC -> threshold thr) -> Forall is_byte extra -> extra <> [] ->
  (forall i, (i < n)%nat -> quantizable scale (elem_at din inm i)) -> old_ok dout outm n ->
  returns inm pk (quantize_call A nt oaddr din dq scale zp rm thr inm pk) (Ok p) ->
  returns (p ++ extra) outm (dequantize_call A2 nt2 oaddr2 dq dout scale zp RO_ADD (length p) outm) r ->
  exists o, r = Ok o /\ length o = length outm /\
    forall i, (i < n)%nat -> let x := val (elem_at din inm i) in let old := val (elem_at dout outm i) in
      IZR (0 - zp) * val scale <= x <= IZR (code_max dq - zp) * val scale -> (dq = DT_UINT2 -> dout = DT_F32 -> (i < 4 * (n / 4))%nat) ->
      finite (elem_at dout o i) /\
      Rabs (val (elem_at dout o i) - (old + x)) <=
        val scale * (match rm with RM_NEAREST => / 2 | RM_STOCHASTIC => 1 end + bpow radix2 (-12)) +
        store_bound dout RO_ADD (match dout with DT_BF16 => / 256 | _ => 0 end) old x (val scale).
Proof.
  intros n HB Hdo Hn HS2 Hob Hs Hp Hz Ht He Hne HI Ho HQ HD.
  destruct (accumulate_near A nt oaddr A2 nt2 oaddr2 din dout dq scale zp rm thr inm pk p extra outm r 0 HB Hdo Hn HS2 Hob Hs Hp Hz Ht He Hne ltac:(lra) HI Ho HQ HD) as (o & -> & HLo & _ & H).
  exists o. split; auto. split; auto. intros i Hi x old [L U] Ht2. specialize (H i Hi). cbv zeta in H. fold x in H. fold old in H. fold n in H. rewrite !Rplus_0_r in H.
  assert (E : match dout with DT_F32 => reaches dq RO_ADD n i | _ => RO_ADD end = RO_ADD).
  { destruct dout; auto. unfold reaches. destruct dq; auto. specialize (Ht2 eq_refl eq_refl). destruct (Nat.ltb_spec i (4 * (n / 4))); auto. lia. }
  rewrite E in H. cbn [wanted] in H. destruct rm; apply H.
  all: assert (IZR (0 - zp) <= x / val scale <= IZR (code_max dq - zp)); [|lra];
    split; apply Rmult_le_reg_r with (val scale); auto; replace (x / val scale * val scale) with x by (field; lra); auto.
Qed.

(** ** The acceptance tests *)
Lemma config_usable a blocks din dout dq scale zp inm n lo hi :
  a <> SSE42 -> float_type din -> float_type dout -> quant_type dq -> finite_data din inm n -> block_cover n blocks ->
  data_range din inm n lo hi -> lo <= 0 <= hi -> bpow radix2 (-112) <= hi - lo <= bpow radix2 100 ->
  compute_quant_config_from_data a din dq inm blocks = Ok (scale, zp) ->
  out_scale dout scale /\ 0 < val scale <= (hi - lo) / IZR (code_max dq) * (1 + / 1000000) /\ (0 <= zp <= code_max dq)%Z /\
  (forall i, (i < n)%nat -> IZR (0 - zp) - / 2 - / 8192 <= val (elem_at din inm i) / val scale <= IZR (code_max dq - zp) + / 2 + / 8192) /\
  (forall i, (i < n)%nat -> quantizable scale (elem_at din inm i)).
Proof.
  intros Ha Hfp Hdo Hq HD HBl HR H0 HB EC. pose proof (bpow_gt_0 radix2 (-112)) as P0.
  assert (H : lo < hi) by lra.
  assert (HB' : bpow radix2 (-118) <= hi - lo <= bpow radix2 100) by (assert (bpow radix2 (-118) <= bpow radix2 (-112)) by (apply bpow_le; lia); lra).
  destruct (C21_documented_parameters a din dq inm n blocks lo hi Ha Hfp Hq HD HBl HR H) as (s & E & Fs & Vs).
  rewrite EC in E. injection E as <- ->.
  assert (I1 : in32 lo) by (destruct HR as ((i & Hi & <-) & _); apply in32_val, HD; auto).
  assert (I2 : in32 hi) by (destruct HR as (_ & (i & Hi & <-) & _); apply in32_val, HD; auto).
  destruct (config_scale_rel dq lo hi Hq I1 I2 HB') as (e & Hee & Es & Bs1 & Bs2).
  destruct (config_zp_near dq lo hi Hq I1 I2 H H0) as (T & Z & N). pose proof (bpow_gt_0 radix2 (-126)) as P1.
  destruct (step_bounds dq lo hi Hq I1 I2 H) as (d & Hd & Ed & _). pose proof (code_max_R dq Hq) as Q.
  assert (D1 : 255 / 256 <= (1 + d) * (1 + e) <= 1 + / 1000000).
  { apply Rabs_le_inv in Hd. apply Rabs_le_inv in Hee. unfold u64r, u32r in *. pose proof (bpow_gt_0 radix2 (-53)). split; nra. }
  assert (Hs : out_scale dout scale).
  { assert (Ns : normal_scale scale) by (split; auto; rewrite Vs; rewrite Rabs_pos_eq; lra). destruct Hdo as [-> | ->]; cbn [out_scale]; auto.
    split; auto. rewrite Vs, Rabs_pos_eq by lra. split; auto. rewrite Es, Ed. set (w := (hi - lo) / IZR (code_max dq)).
    assert (W : bpow radix2 (-112) / 255 <= w).
    { unfold w, Rdiv. apply Rmult_le_compat; [lra|lra|lra|]. apply Rinv_le; lra. }
    replace (bpow radix2 (-120)) with (bpow radix2 (-112) / 256) by (change (-120)%Z with (-112 + -8)%Z; rewrite bpow_plus; reflexivity).
    rewrite Rmult_assoc. apply Rle_trans with (bpow radix2 (-112) / 255 * (255 / 256)); [lra|]. apply Rmult_le_compat; lra. }
  pose proof (out_scale_normal _ _ Hs) as Hsn.
  assert (Hp : 0 < val scale) by lra.
  assert (FIT : forall i, (i < n)%nat -> IZR (0 - config_zp dq lo hi) - / 2 - / 8192 <= val (elem_at din inm i) / val scale <= IZR (code_max dq - config_zp dq lo hi) + / 2 + / 8192).
  { intros i Hi. rewrite Vs. apply config_fits; auto. destruct HR as (_ & _ & HR). apply (HR i Hi). }
  split; auto. split; [|split; [exact Z|split; [exact FIT|]]].
  - split; auto. rewrite Vs, Es, Ed. set (w := (hi - lo) / IZR (code_max dq)). assert (0 < w) by (unfold w; apply Rdiv_lt_0_compat; lra). rewrite Rmult_assoc. apply Rmult_le_compat_l; lra.
  - intros i Hi. split; [apply HD; auto|]. specialize (FIT i Hi). pose proof (scaled_rel scale (val (elem_at din inm i)) Hsn) as SR. set (t := val (elem_at din inm i) / val scale) in *.
    pose proof (code_max_range dq Hq) as Hm. 
    assert (B1 : (Rabs (IZR (0 - config_zp dq lo hi)) <= IZR 255)) by (apply abs_IZR_le; lia). apply Rabs_le_inv in B1.
    assert (B2 : (Rabs (IZR (code_max dq - config_zp dq lo hi)) <= IZR 255)) by (apply abs_IZR_le; lia). apply Rabs_le_inv in B2.
    assert (Tt : Rabs t <= 256) by (apply Rabs_le; lra). destruct tiny_small as [_ T2]. set (y := scaled _ _) in *.
    assert (D : Rabs (y - t) <= 1) by (unfold u32r in SR; lra). apply Rabs_le_inv in Tt. apply Rabs_le_inv in D.
    apply Rle_lt_trans with 300; [apply Rabs_le; lra|]. change (bpow radix2 30) with 1073741824. lra.
Qed.

(** test/requant.cpp, test/dequant.cpp: the value the tests compare with the input, [result[i] - prev] in the element type (prev is what the
    buffer held before the call: 0 with set, a value in [-1, 1] with add). *)
Definition test_value (dt : dtype) (outm o : mem) (i : nat) : f32 :=
  match dt with DT_BF16 => bf16_to_f32 (bf16_sub (bf16_at o i) (bf16_at outm i)) | _ => fsub (f32_at o i) (f32_at outm i) end.
Definition test_prev (dt : dtype) (op : reduce_op) (outm : mem) (n : nat) : Prop :=
  forall i, (i < n)%nat -> finite (elem_at dt outm i) /\ Rabs (val (elem_at dt outm i)) <= 1 /\ (op = RO_SET -> val (elem_at dt outm i) = 0).
(** The tolerances of test/requant.cpp:24 and test/dequant.cpp:22, less 0.01 so that the rounding of the test's own float arithmetic does not matter. *)
Definition requant_tolerance (dq : dtype) : R := match dq with DT_UINT2 => 69 / 100 | DT_UINT4 => 19 / 100 | _ => 9 / 100 end.
Definition dequant_tolerance (dq : dtype) : R := match dq with DT_UINT2 => 199 / 100 | DT_UINT4 => 19 / 100 | _ => 4 / 100 end.

Lemma test_value_near dt outm o i : float_type dt -> Forall is_byte outm -> (dt = DT_BF16 -> (0 <= bf16_at o i < 65536)%Z) -> finite (elem_at dt outm i) -> finite (elem_at dt o i) ->
  Rabs (val (elem_at dt outm i)) <= 1 -> Rabs (val (elem_at dt o i)) <= 4 ->
  let w := val (elem_at dt o i) in let old := val (elem_at dt outm i) in
  finite (test_value dt outm o i) /\ Rabs (val (test_value dt outm o i) - (w - old)) <= match dt with DT_BF16 => / 256 | _ => / 1000000 end * Rabs (w - old) + / 1000000.
Proof.
  intros Hfp Hb Hbo Fp Fw Bp Bw w old. fold w in Bw. fold old in Bp.
  assert (B : Rabs (w - old) <= 5) by (apply Rabs_le_inv in Bw; apply Rabs_le_inv in Bp; apply Rabs_le; lra).
  assert (B8 : 8 <= bpow radix2 120) by (change 8 with (bpow radix2 3); apply bpow_le; lia).
  destruct Hfp as [->| ->]; cbn [test_value].
  - destruct (fsub_ok (f32_at o i) (f32_at outm i) Fw Fp) as [F V].
    { change (val (f32_at o i) - val (f32_at outm i)) with (w - old). apply Rle_lt_trans with (bpow radix2 120); [|unfold max32; apply bpow_lt; lia].
      apply abs_round_le_generic; auto with typeclass_instances; [apply generic_format_bpow; unfold FLT_exp; lia|lra]. }
    split; auto. rewrite V. change (val (f32_at o i) - val (f32_at outm i)) with (w - old). pose proof (RN32_near (w - old)) as N. destruct tiny_small as [_ T]. unfold u32r in N. pose proof (Rabs_pos (w - old)). lra.
  - destruct (rounds_once_ok _ _ (C37_sub (bf16_at o i) (bf16_at outm i) (Hbo eq_refl) (bf16_at_range _ _ Hb) Fw Fp)) as [F V].
    { change (val (bf16_to_f32 (bf16_at o i)) - val (bf16_to_f32 (bf16_at outm i))) with (w - old). lra. }
    split; auto. rewrite V. change (val (bf16_to_f32 (bf16_at o i)) - val (bf16_to_f32 (bf16_at outm i))) with (w - old). pose proof (RN16_near (w - old)) as N.
    assert (bpow radix2 (-134) <= bpow radix2 (-20)) by (apply bpow_le; lia). change (bpow radix2 (-20)) with (/ 1048576) in *. lra.
Qed.

(** One element of a test: the stored value is near, so is the compared value. *)
Lemma test_element dt op outm o i x scale K rel : float_type dt -> Forall is_byte outm -> (dt = DT_BF16 -> (0 <= bf16_at o i < 65536)%Z) ->
  finite (elem_at dt outm i) -> Rabs (val (elem_at dt outm i)) <= 1 -> Rabs x <= 1 -> 
  0 < val scale <= 67 / 100 -> / 2 <= K <= 1 -> 0 <= rel <= / 127 -> finite (elem_at dt o i) ->
  Rabs (val (elem_at dt o i) - wanted op (val (elem_at dt outm i)) x) <= val scale * (K + / 8192 + bpow radix2 (-12)) + store_bound dt op rel (val (elem_at dt outm i)) x (val scale) ->
  finite (test_value dt outm o i) /\
  Rabs (x - val (test_value dt outm o i)) <= match dt with DT_BF16 => 20 / 1000 + 103 / 100 * val scale | _ => / 10000 + 1001 / 1000 * val scale end +
    101 / 100 * Rabs (wanted op (val (elem_at dt outm i)) x - (val (elem_at dt outm i) + x)).
Proof.
  intros Hfp Hb Hbo Fp Bp Bx Hs HK Hrel Fw Hw. change (bpow radix2 (-12)) with (/ 4096) in Hw.
  set (w := val (elem_at dt o i)) in *. set (old := val (elem_at dt outm i)) in *. set (s := val scale) in *.
  assert (T126 : bpow radix2 (-126) <= / 10000000) by (apply Rle_trans with (bpow radix2 (-30)); [apply bpow_le; lia|change (bpow radix2 (-30)) with (/ 1073741824); lra]).
  assert (SK : s * (K + / 8192 + / 4096) <= s * (10004 / 10000)) by (apply Rmult_le_compat_l; lra).
  pose proof (Rabs_pos x) as Px. pose proof (Rabs_pos old) as Po. pose proof (bpow_gt_0 radix2 (-126)) as P126.
  assert (RR : rel * (Rabs x + 2 * s) <= / 127 * (1 + 2 * s)) by (apply Rmult_le_compat; lra).
  assert (SB : store_bound dt op rel old x s <= match dt with DT_BF16 => 159 / 10000 + 24 / 1000 * s | _ => / 1000000 end).
  { destruct Hfp as [->| ->], op; cbn [store_bound]; lra. }
  set (e := Rabs (w - wanted op old x)) in *. set (g := Rabs (wanted op old x - (old + x))) in *.
  assert (E : e <= match dt with DT_BF16 => 159 / 10000 + 10244 / 10000 * s | _ => / 1000000 + 10004 / 10000 * s end) by (destruct Hfp as [->| ->]; lra).
  assert (G2 : g <= 1).
  { unfold g. destruct op; cbn [wanted]; [replace (x - (old + x)) with (- old) by ring; rewrite Rabs_Ropp; auto|replace (old + x - (old + x)) with 0 by ring; rewrite Rabs_R0; lra]. }
  assert (D : Rabs (w - old - x) <= e + g).
  { replace (w - old - x) with ((w - wanted op old x) + (wanted op old x - (old + x))) by ring. apply Rabs_triang. }
  assert (e <= 8 / 10) by (destruct Hfp as [->| ->]; lra).
  assert (Bw : Rabs w <= 4).
  { replace w with ((w - old - x) + (old + x)) by ring. eapply Rle_trans; [apply Rabs_triang|]. pose proof (Rabs_triang old x). lra. }
  destruct (test_value_near dt outm o i Hfp Hb Hbo Fp Fw Bp Bw) as [F N]. fold w in N. fold old in N. split; auto. set (t := val (test_value dt outm o i)) in *.
  assert (W : Rabs (w - old) <= 1 + (e + g)).
  { replace (w - old) with (x + (w - old - x)) by ring. eapply Rle_trans; [apply Rabs_triang|]. lra. }
  assert (X : Rabs (x - t) <= Rabs (t - (w - old)) + (e + g)).
  { replace (x - t) with (- (t - (w - old)) + - (w - old - x)) by ring. eapply Rle_trans; [apply Rabs_triang|]. rewrite !Rabs_Ropp. lra. }
  assert (g >= 0) by (apply Rle_ge, Rabs_pos). destruct Hfp as [->| ->]; lra.
Qed.

(** ** C56, test/requant.cpp: for every data in [-1, 1] that straddle zero, every size, CPU, thread count, schedule and random threshold, every combination the test
    program instantiates passes its tolerance check.  ([a] is the kernel set whose scan computed the parameters.) *)
Theorem C56_requant_test a blocks A nt oaddr dt dq scale zp rm op thr inm outm r lo hi :
  let n := numel dt (length outm) in
  a <> SSE42 -> float_type dt -> quant_type dq -> (dt = DT_BF16 -> dq <> DT_UINT2) ->
  finite_data dt inm n -> block_cover n blocks -> data_range dt inm n lo hi -> -1 <= lo <= 0 -> 0 <= hi <= 1 -> bpow radix2 (-112) <= hi - lo ->
  compute_quant_config_from_data a dt dq inm blocks = Ok (scale, zp) ->
  length inm = length outm -> sizes_ok (length outm) n nt -> Forall is_byte outm -> test_prev dt op outm n -> (rm = RM_STOCHASTIC -> threshold thr) ->
  returns inm outm (fused_call A nt oaddr dt dq scale zp rm op thr inm outm) r ->
  exists o, r = Ok o /\ forall i, (i < n)%nat ->
    finite (test_value dt outm o i) /\ Rabs (val (elem_at dt inm i) - val (test_value dt outm o i)) <= requant_tolerance dq.
Proof.
  intros n Ha Hfp Hq Hu2 HD HBl HR [Hl Hl0] [Hh0 Hh] HB EC HL HS Hob Hpv Ht HRR.
  assert (B100 : 4 <= bpow radix2 100) by (change 4 with (bpow radix2 2); apply bpow_le; lia).
  destruct (config_usable a blocks dt dt dq scale zp inm n lo hi Ha Hfp Hfp Hq HD HBl HR ltac:(lra) ltac:(lra) EC) as (Hs & [Hp Hsu] & Hz & FIT & HX).
  assert (B1 : 1 <= bpow radix2 118) by (change 1 with (bpow radix2 0) at 1; apply bpow_le; lia).
  destruct (fused_near A nt oaddr dt dq scale zp rm op thr inm outm r (/ 8192) Hfp Hq HL HS Hob Hs Hp Hz Ht ltac:(lra) HX) as (o & -> & Lo & Hrg & H); auto.
  { intros _ i Hi. destruct (Hpv i Hi) as (F & B & _). split; auto. lra. }
  exists o. split; auto. intros i Hi. specialize (H i Hi). cbv zeta in H. destruct (H (FIT i Hi)) as [Fw Nw]. destruct (Hpv i Hi) as (Fp & Bp & Zp).
  assert (Bx : Rabs (val (elem_at dt inm i)) <= 1) by (destruct HR as (_ & _ & HR); specialize (HR i Hi); apply Rabs_le; lra).
  assert (Sc : val scale <= 2 / IZR (code_max dq) * (1 + / 1000000)).
  { eapply Rle_trans; [exact Hsu|]. apply Rmult_le_compat_r; [lra|]. pose proof (code_max_R dq Hq). unfold Rdiv. apply Rmult_le_compat_r; [left; apply Rinv_0_lt_compat; lra|lra]. }
  assert (Sq : val scale <= match dq with DT_UINT2 => 6667 / 10000 | DT_UINT4 => 1334 / 10000 | _ => 79 / 10000 end).
  { eapply Rle_trans; [exact Sc|]. destruct Hq as [->|[->| ->]]; [change (code_max DT_UINT2) with 3%Z|change (code_max DT_UINT4) with 15%Z|change (code_max DT_UINT8) with 255%Z]; lra. }
  assert (HK : / 2 <= code_error rm <= 1) by (destruct rm; cbn; lra).
  destruct (test_element dt op outm o i (val (elem_at dt inm i)) scale (code_error rm) (fused_rel dt)) as [Ft Nt]; auto.
  - split; auto. destruct Hq as [->|[->| ->]]; lra.
  - destruct Hfp as [->| ->]; cbn; lra.
  - split; auto. eapply Rle_trans; [exact Nt|].
    assert (W0 : wanted op (val (elem_at dt outm i)) (val (elem_at dt inm i)) - (val (elem_at dt outm i) + val (elem_at dt inm i)) = 0).
    { destruct op; cbn [wanted]; [rewrite (Zp eq_refl)|]; ring. }
    rewrite W0, Rabs_R0, Rmult_0_r, Rplus_0_r. unfold requant_tolerance. destruct Hfp as [->| ->], Hq as [->|[->| ->]]; try (exfalso; exact (Hu2 eq_refl eq_refl)); lra.
Qed.

(** ** C56, test/dequant.cpp: quantize, then dequantize with set or add.  The uint2 tolerance of 2.0 is so wide that also the last n mod 4 elements of
    uint2 -> float with add pass, which the code overwrites instead of adding to (C08_add_uint2_tail_refuted): the test cannot see that defect. *)
Theorem C56_dequant_test a blocks A nt oaddr A2 nt2 oaddr2 dt dq scale zp rm op thr inm pk p extra outm r lo hi :
  let n := numel dt (length outm) in
  a <> SSE42 -> float_type dt ->
  finite_data dt inm n -> block_cover n blocks -> data_range dt inm n lo hi -> -1 <= lo <= 0 -> 0 <= hi <= 1 -> bpow radix2 (-112) <= hi - lo ->
  compute_quant_config_from_data a dt dq inm blocks = Ok (scale, zp) ->
  buffers_ok nt dt dq inm pk -> length inm = length outm -> sizes_ok (length outm) n nt2 -> Forall is_byte outm -> test_prev dt op outm n -> (rm = RM_STOCHASTIC -> threshold thr) ->
  Forall is_byte extra -> extra <> [] ->
  returns inm pk (quantize_call A nt oaddr dt dq scale zp rm thr inm pk) (Ok p) ->
  returns (p ++ extra) outm (dequantize_call A2 nt2 oaddr2 dq dt scale zp op (length p) outm) r ->
  exists o, r = Ok o /\ forall i, (i < n)%nat ->
    finite (test_value dt outm o i) /\ Rabs (val (elem_at dt inm i) - val (test_value dt outm o i)) <= dequant_tolerance dq.
Proof.
  intros n Ha Hfp HD HBl HR [Hl Hl0] [Hh0 Hh] HB EC HBu HL HS Hob Hpv Ht He Hne HQ HDq. pose proof HBu as (_ & Hq & _).
  assert (Hn : numel dt (length inm) = n) by (unfold n; rewrite HL; reflexivity).
  assert (B100 : 4 <= bpow radix2 100) by (change 4 with (bpow radix2 2); apply bpow_le; lia).
  destruct (config_usable a blocks dt dt dq scale zp inm n lo hi Ha Hfp Hfp Hq HD HBl HR ltac:(lra) ltac:(lra) EC) as (Hs & [Hp Hsu] & Hz & FIT & HX).
  assert (B1 : 1 <= bpow radix2 118) by (change 1 with (bpow radix2 0) at 1; apply bpow_le; lia).
  assert (Sc : val scale <= 2 / IZR (code_max dq) * (1 + / 1000000)).
  { eapply Rle_trans; [exact Hsu|]. apply Rmult_le_compat_r; [lra|]. pose proof (code_max_R dq Hq). unfold Rdiv. apply Rmult_le_compat_r; [left; apply Rinv_0_lt_compat; lra|lra]. }
  assert (Sq : val scale <= match dq with DT_UINT2 => 6667 / 10000 | DT_UINT4 => 1334 / 10000 | _ => 79 / 10000 end).
  { eapply Rle_trans; [exact Sc|]. destruct Hq as [->|[->| ->]]; [change (code_max DT_UINT2) with 3%Z|change (code_max DT_UINT4) with 15%Z|change (code_max DT_UINT8) with 255%Z]; lra. }
  assert (HK : / 2 <= code_error rm <= 1) by (destruct rm; cbn; lra).
  assert (NEAR : exists o, r = Ok o /\ (dt = DT_BF16 -> forall i, (i < n)%nat -> (0 <= bf16_at o i < 65536)%Z) /\
    forall i, (i < n)%nat -> let op' := match dt with DT_F32 => reaches dq op n i | _ => op end in
      finite (elem_at dt o i) /\ Rabs (val (elem_at dt o i) - wanted op' (val (elem_at dt outm i)) (val (elem_at dt inm i))) <=
        val scale * (code_error rm + / 8192 + bpow radix2 (-12)) + store_bound dt op' (dequant_rel dt) (val (elem_at dt outm i)) (val (elem_at dt inm i)) (val scale)).
  { destruct op.
    - destruct (round_trip_types A nt oaddr A2 nt2 oaddr2 dt dt dq scale zp rm thr inm pk p extra outm r (/ 8192) HBu Hfp Hn HS Hob Hs Hp Hz Ht He Hne ltac:(lra) HX HQ HDq) as (o & -> & HLo & HO).
      exists o. split; auto. split.
      + intros -> i Hi. destruct (quantize_near_rm A nt oaddr DT_BF16 dq scale zp rm thr inm pk (Ok p) HBu (normal_good _ (out_scale_normal _ _ Hs)) ltac:(pose proof (code_max_range dq Hq); lia) Ht) as (p' & E & HLp & Hby & _); auto.
        { rewrite Hn. auto. }
        injection E as <-.
        destruct (packed_buffers nt nt2 DT_BF16 DT_BF16 dq inm pk p extra outm HBu (or_intror eq_refl) HLp Hby He Hne ltac:(rewrite Hn; reflexivity) HS) as [HB' _].
        assert (Z31 : (Z.abs zp <= 2 ^ 22)%Z) by (clear - Hz Hq; pose proof (code_max_range dq Hq); lia). destruct (C07_dequantize_set_bf16 _ _ _ _ _ _ _ _ _ _ HB' Z31 Hob HDq) as (o' & Eo & _ & HE & _). injection Eo as <-.
        specialize (HE i Hi). cbv zeta in HE. rewrite HE. apply convert_range.
      + intros i Hi op'. assert (op' = RO_SET) as -> by (unfold op', reaches; destruct dt; auto; destruct dq; auto; destruct (_ <? _)%nat; auto).
        specialize (HO i Hi). cbv zeta in HO. destruct (HO (FIT i Hi)) as [F N]. split; auto. cbn [wanted]. eapply Rle_trans; [exact N|]. set (x := val (elem_at dt inm i)).
        apply Req_le. destruct Hfp as [->| ->]; cbn [store_error store_bound dequant_rel]; field; lra.
    - destruct (accumulate_near A nt oaddr A2 nt2 oaddr2 dt dt dq scale zp rm thr inm pk p extra outm r (/ 8192) HBu Hfp Hn HS Hob Hs Hp Hz Ht He Hne ltac:(lra) HX) as (o & -> & HLo & Hrg & HO); auto.
      { intros i Hi. destruct (Hpv i Hi) as (F & B & _). split; auto. lra. }
      exists o. split; auto. split; auto. intros i Hi op'. specialize (HO i Hi). cbv zeta in HO. apply HO. apply FIT. auto. }
  destruct NEAR as (o & -> & Hrg & H). exists o. split; auto. intros i Hi. specialize (H i Hi). cbv zeta in H. destruct H as [Fw Nw]. destruct (Hpv i Hi) as (Fp & Bp & Zp).
  assert (Bx : Rabs (val (elem_at dt inm i)) <= 1) by (destruct HR as (_ & _ & HR); specialize (HR i Hi); apply Rabs_le; lra).
  set (op' := match dt with DT_F32 => reaches dq op n i | _ => op end) in *.
  destruct (test_element dt op' outm o i (val (elem_at dt inm i)) scale (code_error rm) (dequant_rel dt)) as [Ft Nt]; auto.
  - split; auto. destruct Hq as [->|[->| ->]]; lra.
  - destruct Hfp as [->| ->]; cbn; lra.
  - split; auto. eapply Rle_trans; [exact Nt|].
    assert (W0 : Rabs (wanted op' (val (elem_at dt outm i)) (val (elem_at dt inm i)) - (val (elem_at dt outm i) + val (elem_at dt inm i))) <= match dq with DT_UINT2 => 1 | _ => 0 end).
    { assert (S0 : op' = op \/ dq = DT_UINT2) by (unfold op', reaches; destruct dt; auto; destruct dq; auto).
      assert (G : op' = op -> Rabs (wanted op' (val (elem_at dt outm i)) (val (elem_at dt inm i)) - (val (elem_at dt outm i) + val (elem_at dt inm i))) = 0).
      { intros ->. destruct op; cbn [wanted]; [rewrite (Zp eq_refl); rewrite Rplus_0_l|]; rewrite Rminus_diag_eq, Rabs_R0 by reflexivity; reflexivity. }
      destruct S0 as [Eq| ->]; [rewrite (G Eq); destruct dq; lra|].
      destruct op'; cbn [wanted]; [|rewrite Rminus_diag_eq, Rabs_R0 by reflexivity; lra].
      replace (val (elem_at dt inm i) - (val (elem_at dt outm i) + val (elem_at dt inm i))) with (- val (elem_at dt outm i)) by ring. rewrite Rabs_Ropp. auto. }
    unfold dequant_tolerance. destruct Hfp as [->| ->], Hq as [->|[->| ->]]; cbn [dequant_rel] in *; lra.
Qed.

(** ** C56, test/quant_config.cpp: the scale is positive and finite, and quantizing with the computed parameters succeeds. *)
Theorem C56_range_test a blocks A nt oaddr din dq scale zp rm thr inm pk r lo hi :
  let n := numel din (length inm) in
  a <> SSE42 -> finite_data din inm n -> block_cover n blocks -> data_range din inm n lo hi -> lo <= 0 <= hi -> bpow radix2 (-112) <= hi - lo <= bpow radix2 100 ->
  compute_quant_config_from_data a din dq inm blocks = Ok (scale, zp) ->
  buffers_ok nt din dq inm pk -> (rm = RM_STOCHASTIC -> threshold thr) ->
  returns inm pk (quantize_call A nt oaddr din dq scale zp rm thr inm pk) r ->
  finite scale /\ 0 < val scale /\ exists p, r = Ok p /\ length p = length pk.
Proof.
  intros n Ha HD HBl HR H0 HB EC HBu Ht HQ. pose proof HBu as (Hfp & Hq & _).
  destruct (config_usable a blocks din DT_F32 dq scale zp inm n lo hi Ha Hfp (or_introl eq_refl) Hq HD HBl HR H0 HB EC) as (Hs & [Hp _] & Hz & _ & HX).
  split; [apply Hs|]. split; auto.
  destruct (quantize_near_rm A nt oaddr din dq scale zp rm thr inm pk r HBu (normal_good _ Hs) ltac:(pose proof (code_max_range dq Hq); lia) Ht) as (p & -> & L & _); auto. eauto.
Qed.
