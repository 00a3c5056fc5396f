(** PropsNaive.v -- C53: the library agrees with the project's reference quantizer (test/naive.hpp) for every input;
    C54: the round trip of constant data. *)
From Coq Require Import ZArith List Lia Bool Arith ZifyBool ZifyNat Reals Lra.
From Flocq Require Import Core Binary Bits.
From Verif Require Import Base Floats Simd Dtypes Spec ApiSpec QuantKernels ExecFacts FloatFacts QuantFacts QuantKernelFacts DequantFacts QuantLanes Context ContextFacts Footprint
  QuantizeFacts Api PropsQuantize FloatFacts2 PropsDequantize PropsRoundTrip MinMax ConfigSpec PropsConfig PropsReadme Naive.
Import ListNotations.
Ltac Zify.zify_post_hook ::= Z.div_mod_to_equations.

(** ** The random numbers of the reference *)
Local Open Scope R_scope.
Theorem C53_reference_random s : (0 <= fst s < 2 ^ 64)%Z -> (0 <= snd s < 2 ^ 64)%Z ->
  (0 <= fst (xs_next s) < 2 ^ 64)%Z /\ (0 <= fst (snd (xs_next s)) < 2 ^ 64)%Z /\ (0 <= snd (snd (xs_next s)) < 2 ^ 64)%Z /\
  finite (xs_canonical s) /\ val (xs_canonical s) = (IZR (fst (xs_next s) mod 2 ^ 32 / 512) + / 2) / 8388608 /\ 0 < val (xs_canonical s) < 1.
Proof.
  intros H1 H2. destruct s as [a b]. cbn [fst snd] in *.
  assert (LB : forall z, (0 <= z < 2 ^ 64 <-> (0 <= z /\ Z.log2 z < 64))%Z).
  { intros z. split; [intros H; split; [lia|]|intros [Hz HL]].
    - destruct (Z.eq_dec z 0) as [->|]; [reflexivity|apply Z.log2_lt_pow2; lia].
    - split; auto. destruct (Z.eq_dec z 0) as [->|]; [lia|apply Z.log2_lt_pow2; lia]. }
  assert (LX : forall x y, (0 <= x < 2 ^ 64 -> 0 <= y < 2 ^ 64 -> 0 <= Z.lxor x y < 2 ^ 64)%Z).
  { intros x y Hx Hy. apply LB in Hx. apply LB in Hy. apply LB. split; [apply Z.lxor_nonneg; tauto|].
    apply Z.le_lt_trans with (Z.max (Z.log2 x) (Z.log2 y)); [apply Z.log2_lxor; tauto|lia]. }
  assert (LS : forall x n, (0 <= x < 2 ^ 64 -> 0 <= n -> 0 <= Z.shiftr x n < 2 ^ 64)%Z).
  { intros x n Hx Hn. rewrite Z.shiftr_div_pow2 by auto. assert (0 < 2 ^ n)%Z by (apply Z.pow_pos_nonneg; lia). split; [apply Z.div_pos; lia|].
    apply Z.le_lt_trans with x; [apply Z.div_le_upper_bound; nia|lia]. }
  assert (W : forall z, (0 <= wrap_u64 z < 2 ^ 64)%Z) by (intros z; unfold wrap_u64; change (2 ^ 64)%Z with 18446744073709551616%Z; apply Z.mod_pos_bound; lia).
  assert (P2 : (0 <= snd (snd (xs_next (a, b))) < 2 ^ 64)%Z).
  { cbn [xs_next fst snd]. repeat apply LX; auto; try apply LS; auto; try apply LX; auto; lia. }
  set (w := fst (xs_next (a, b))).
  assert (Ww : (0 <= w < 2 ^ 64)%Z) by apply W.
  split; [exact Ww|]. split; [exact H2|]. split; [exact P2|].
  unfold xs_canonical. fold w. cbv zeta.
  assert (K : Z.shiftr (Z.land 4294967295 w) 9 = (w mod 2 ^ 32 / 512)%Z).
  { rewrite Z.land_comm. change 4294967295%Z with (Z.ones 32). rewrite Z.land_ones by lia. rewrite Z.shiftr_div_pow2 by lia. reflexivity. }
  rewrite K. set (k := (w mod 2 ^ 32 / 512)%Z). assert (Hk : (0 <= k < 8388608)%Z).
  { unfold k. pose proof (Z.mod_pos_bound w (2 ^ 32)). change (2 ^ 32)%Z with 4294967296%Z in *. lia. }
  clearbody k. clear - Hk.
  destruct (f32_of_Z_exact k ltac:(lia)) as [Fk Vk]. destruct f_half_ok as [Fh Vh].
  assert (R1 : RN32 (IZR k + / 2) = IZR k + / 2).
  { apply RN32_fmt. replace (IZR k + / 2) with (IZR (2 * k + 1) / 2) by (rewrite plus_IZR, mult_IZR; lra). apply fmt32_half_int. lia. }
  assert (B1 : 0 <= IZR k <= 8388607) by (split; [apply (IZR_le 0); lia|apply (IZR_le k 8388607); lia]).
  assert (M : 8388608 < max32) by (unfold max32; change 8388608 with (bpow radix2 23); apply bpow_lt; lia).
  destruct (fadd_ok (f32_of_Z k) f_half Fk Fh) as [Fa Va]; [rewrite Vk, Vh, R1, Rabs_pos_eq; lra|]. rewrite Vk, Vh, R1 in Va.
  set (c := fdiv f_one (f32_of_Z 8388608)). assert (Vc : val c = / 8388608) by (unfold c, val; vm_compute B2R; unfold F2R; cbn; lra).
  assert (Fc : finite c) by (vm_compute; reflexivity). clearbody c.
  assert (R2 : RN32 (/ 8388608 * (IZR k + / 2)) = (IZR k + / 2) / 8388608).
  { rewrite RN32_fmt; [lra|]. replace (/ 8388608 * (IZR k + / 2)) with (F2R (Float radix2 (2 * k + 1) (-24))).
    - apply fmt32_F2R; lia.
    - unfold F2R. cbn [Fnum Fexp]. change (bpow radix2 (-24)) with (/ 16777216). rewrite plus_IZR, mult_IZR. lra. }
  destruct (fmul_ok c (fadd (f32_of_Z k) f_half) Fc Fa) as [Fm Vm]; [rewrite Vc, Va, R2; rewrite Rabs_pos_eq; lra|].
  rewrite Vc, Va, R2 in Vm. split; auto. split; auto. rewrite Vm. lra.
Qed.
Local Close Scope R_scope.

(** ** The bytes of the reference *)
Lemma naive_bytes_ok q C : forall xs i, (forall k, k < length xs -> q (i + k) (nth k xs f_zero) = Ok (C (i + k))) ->
  naive_bytes q i xs = Ok (map C (seq i (length xs))).
Proof.
  induction xs as [|a t IH]; intros i H; cbn [naive_bytes]; auto.
  pose proof (H 0 ltac:(cbn; lia)) as H0. rewrite Nat.add_0_r in H0. cbn [nth] in H0. rewrite H0. cbn [bind].
  rewrite (IH (S i)); [reflexivity|]. intros k Hk. specialize (H (S k) ltac:(cbn; lia)). cbn [nth] in H. rewrite Nat.add_succ_r in H. exact H.
Qed.
Lemma naive_pack_val a b : (0 <= a <= 15)%Z -> (0 <= b <= 15)%Z -> naive_pack a b = (a + 16 * b)%Z.
Proof.
  intros Ha Hb. assert (E : forallb (fun a => forallb (fun b => (naive_pack (Z.of_nat a) (Z.of_nat b) =? Z.of_nat a + 16 * Z.of_nat b)%Z) (seq 0 16)) (seq 0 16) = true) by (vm_compute; reflexivity).
  rewrite forallb_forall in E. specialize (E (Z.to_nat a) ltac:(apply in_seq; lia)). rewrite forallb_forall in E. specialize (E (Z.to_nat b) ltac:(apply in_seq; lia)).
  rewrite !Z2Nat.id in E by lia. lia.
Qed.
(** the bytes of the pairs from element [2 j] on *)
Lemma naive_pairs_ok q C n : (forall i, (0 <= C i <= 15)%Z) -> forall m xs j, length xs <= m -> 2 * j + length xs = n ->
  (forall k, k < length xs -> q (2 * j + k) (nth k xs f_zero) = Ok (C (2 * j + k))) ->
  naive_pairs q (2 * j) xs = Ok (map (byte_of DT_UINT4 (cut n C)) (seq j ((length xs + 1) / 2))).
Proof.
  intros HC. induction m as [|m IH]; intros xs j Hm Hn H.
  - destruct xs; [reflexivity|cbn in Hm; lia].
  - destruct xs as [|a [|b t]]; [reflexivity|..].
    + cbn [naive_pairs length] in *. specialize (H 0 ltac:(lia)). rewrite Nat.add_0_r in H. cbn [nth] in H. rewrite H. cbn [bind].
      rewrite naive_pack_val by (auto; lia). change ((1 + 1) / 2) with 1. cbn [seq map byte_of].
      rewrite cut_lt by lia. unfold cut. destruct (Nat.ltb_spec (2 * j + 1) n); [lia|]. do 2 f_equal.
      change 15%Z with (Z.ones 4). rewrite Z.land_ones by lia. rewrite Z.mul_0_r, Z.add_0_r. apply Z.mod_small. specialize (HC (2 * j)). lia.
    + cbn [naive_pairs]. pose proof (H 0 ltac:(cbn; lia)) as H0. pose proof (H 1 ltac:(cbn; lia)) as H1. rewrite Nat.add_0_r in H0. cbn [nth] in H0, H1.
      replace (S (2 * j)) with (2 * j + 1) by lia. rewrite H0, H1. cbn [bind]. cbn [length] in *.
      replace (S (2 * j + 1)) with (2 * S j) by lia. rewrite (IH t (S j)); [|lia|lia|].
      * cbn [bind]. replace ((S (S (length t)) + 1) / 2) with (S ((length t + 1) / 2)).
        2:{ replace (S (S (length t)) + 1) with (length t + 1 + 1 * 2) by lia. rewrite Nat.div_add by lia. lia. }
        cbn [seq map byte_of]. rewrite !cut_lt by lia. rewrite naive_pack_val by auto. reflexivity.
      * intros k Hk. specialize (H (S (S k)) ltac:(lia)). cbn [nth] in H. replace (2 * S j + k) with (2 * j + S (S k)) by lia. exact H.
Qed.

Definition reference_type (dq : dtype) : Prop := dq = DT_UINT8 \/ dq = DT_UINT4.
Lemma reference_quant dq : reference_type dq -> quant_type dq.
Proof. intros [->| ->]; [right; right; reflexivity|right; left; reflexivity]. Qed.
Definition elements (d : dtype) (m : mem) : list f32 := map (elem_at d m) (seq 0 (numel d (length m))).

Lemma quantize_naive_ok rm din dq scale zp xi inm o C : reference_type dq -> let n := numel din (length inm) in
  length o = bytes_for dq n -> (forall i, (0 <= C i <= code_max dq)%Z) ->
  (forall i, i < n -> naive_Q rm din dq scale zp xi i (elem_at din inm i) = Ok (C i)) ->
  quantize_naive rm din dq scale zp xi (elements din inm) o = Ok (map (packed_byte dq n C) (seq 0 (bytes_for dq n))).
Proof.
  intros Hr n HL HC HQ. pose proof (reference_quant _ Hr) as Hq. unfold quantize_naive, elements. fold n. cbv zeta.
  assert (Hxs : length (map (elem_at din inm) (seq 0 n)) = n) by (rewrite map_length, seq_length; reflexivity).
  set (xs := map (elem_at din inm) (seq 0 n)) in *.
  assert (Hn : forall k, k < length xs -> naive_Q rm din dq scale zp xi (0 + k) (nth k xs f_zero) = Ok (C (0 + k))).
  { rewrite Hxs. intros k Hk. unfold xs. rewrite (nth_indep _ f_zero (elem_at din inm 0)) by (rewrite map_length, seq_length; auto). rewrite map_nth, seq_nth by auto. apply HQ; auto. }
  assert (E : match dq with DT_UINT4 => naive_pairs (naive_Q rm din dq scale zp xi) 0 xs | _ => naive_bytes (naive_Q rm din dq scale zp xi) 0 xs end =
              Ok (map (packed_byte dq n C) (seq 0 (bytes_for dq n)))).
  { rewrite (map_ext _ (byte_of dq (cut n C))) by (intros; symmetry; apply byte_of_packed; auto). rewrite bytes_for_per_byte by auto.
    destruct Hr as [-> | ->].
    - rewrite (naive_bytes_ok _ C) by exact Hn. rewrite Hxs. cbn [per_byte]. rewrite Nat.div_1_r. change (1 - 1) with 0. rewrite Nat.add_0_r. f_equal. apply map_ext_in. intros k Hk. apply in_seq in Hk.
      cbn [byte_of]. rewrite cut_lt by lia. reflexivity.
    - change 0 with (2 * 0) at 1. rewrite (naive_pairs_ok _ C n HC (length xs) xs 0); auto. rewrite Hxs. cbn [per_byte]. change (2 - 1) with 1. reflexivity. }
  rewrite E. cbn [bind]. rewrite map_length, seq_length, HL, Nat.leb_refl. rewrite <- HL, skipn_all, app_nil_r. reflexivity.
Qed.

(** ** C53 *)
(** Nearest rounding: the library's output is byte for byte that of the reference, on every kernel set, with every thread count, schedule and address. *)
Theorem C53_nearest_equals_reference A nt oaddr din dq scale zp thr xi inm outm refm r : reference_type dq ->
  buffers_ok nt din dq inm outm -> length refm = length outm -> good_scale scale -> (Z.abs zp <= 2 ^ 22)%Z ->
  (forall i, i < numel din (length inm) -> nearest_ok A scale (elem_at din inm i)) ->
  returns inm outm (quantize_call A nt oaddr din dq scale zp RM_NEAREST thr inm outm) r ->
  exists o, r = Ok o /\ quantize_naive RM_NEAREST din dq scale zp xi (elements din inm) refm = Ok o.
Proof.
  intros Hr (Hfp & Hq & Hb & Hl & HS) Hlr Hsc Hz HI HR. unfold quantize_call in HR.
  apply quantize_bytes in HR; auto; try discriminate; [|intros i Hi; split; auto]. rewrite skipn_all, app_nil_r in HR.
  eexists. split; [exact HR|].
  rewrite (quantize_naive_ok RM_NEAREST din dq scale zp xi inm refm (fun i => expected_code RM_NEAREST dq scale zp thr (elem_at din inm i))); auto.
  - rewrite Hl. reflexivity.
  - rewrite Hlr. exact Hl.
  - intros i. apply expected_range; auto.
  - intros i Hi. cbn [naive_Q expected_code]. unfold quant_code. pose proof (code_max_range dq Hq).
    assert (E : naive_nearest dq scale zp (elem_at din inm i) = q_nearest_i64 (code_max dq) (fdiv f_one scale) zp (elem_at din inm i)) by (destruct Hr as [-> | ->]; reflexivity).
    rewrite E. rewrite (q_nearest_i64_ok scale (elem_at din inm i) zp Hsc (proj1 (HI i Hi))) by lia. reflexivity.
Qed.

(** Stochastic rounding of f32 data: the reference draws a new number for every element, the library one per call; the codes differ by at most one. *)
Theorem C53_stochastic_near_reference A nt oaddr dq scale zp thr xi inm outm refm r : reference_type dq ->
  buffers_ok nt DT_F32 dq inm outm -> length refm = length outm -> good_scale scale -> (Z.abs zp <= 2 ^ 62)%Z -> threshold thr ->
  (forall i, exists s, (0 <= fst s < 2 ^ 64)%Z /\ (0 <= snd s < 2 ^ 64)%Z /\ xi i = xs_canonical s) ->
  (forall i, i < numel DT_F32 (length inm) -> quantizable scale (elem_at DT_F32 inm i)) ->
  returns inm outm (quantize_call A nt oaddr DT_F32 dq scale zp RM_STOCHASTIC thr inm outm) r ->
  exists o ref, r = Ok o /\ quantize_naive RM_STOCHASTIC DT_F32 dq scale zp xi (elements DT_F32 inm) refm = Ok ref /\ length o = length ref /\
    forall i, i < numel DT_F32 (length inm) -> (Z.abs (code_at dq o i - code_at dq ref i) <= 1)%Z.
Proof.
  intros Hr HB Hlr Hsc Hz Ht Hxi HI HR. pose proof HB as (Hfp & Hq & Hb & Hl & HS).
  destruct (C29_quantize_stochastic A nt oaddr DT_F32 dq scale zp thr inm outm r HB Hsc Hz Ht HI HR) as (o & -> & HLo & HO).
  assert (T : forall i, threshold (xi i)).
  { intros i. destruct (Hxi i) as (s & S1 & S2 & ->). destruct (C53_reference_random s S1 S2) as (_ & _ & _ & F & _ & B). split; auto. lra. }
  set (C := fun i => expected_code RM_STOCHASTIC dq scale zp (xi i) (elem_at DT_F32 inm i)).
  assert (HC : forall i, (0 <= C i <= code_max dq)%Z) by (intros i; apply expected_range; auto).
  eexists. eexists. split; [reflexivity|]. split.
  { apply (quantize_naive_ok RM_STOCHASTIC DT_F32 dq scale zp xi inm refm C); auto; [rewrite Hlr; exact Hl|].
    intros i Hi. cbn [naive_Q]. unfold C. cbn [expected_code]. unfold stoch_code. pose proof (code_max_range dq Hq).
    assert (E : naive_stochastic DT_F32 dq scale zp (xi i) (elem_at DT_F32 inm i) = q_stochastic (code_max dq) (xi i) (fdiv f_one scale) zp (elem_at DT_F32 inm i)) by (destruct Hr as [-> | ->]; reflexivity).
    rewrite E. rewrite (q_stochastic_ok scale (elem_at DT_F32 inm i) (xi i) zp Hsc (HI i Hi) (T i)) by lia. reflexivity. }
  split; [rewrite map_length, seq_length; congruence|].
  intros i Hi. rewrite (HO i Hi).
  rewrite (map_ext _ (byte_of dq (cut (numel DT_F32 (length inm)) C))) by (intros; symmetry; apply byte_of_packed; auto).
  rewrite <- (app_nil_r (map _ _)). rewrite code_at_byte_of; auto.
  2:{ rewrite bytes_for_per_byte by auto. destruct Hq as [->|[->| ->]]; cbn [per_byte]; lia. }
  rewrite cut_lt by auto. unfold C. cbn [expected_code]. unfold stoch_code. set (y := scaled _ _).
  assert (D : (Z.abs (stoch_round (val thr) y - stoch_round (val (xi i)) y) <= 1)%Z).
  { unfold stoch_round. destruct (Rlt_bool y 0), (Rlt_bool (val thr) _), (Rlt_bool (val (xi i)) _); lia. }
  unfold clamp. lia.
Qed.

(** For uint2 the reference is not usable: it stores one byte per element into a span of ceil(n / 4) bytes (its tests are commented out, test/quant.cpp:184-187). *)
Theorem C53_reference_uint2_overflow din scale zp xi inm refm : let n := numel din (length inm) in 2 <= n -> length refm = bytes_for DT_UINT2 n ->
  good_scale scale -> (Z.abs zp <= 2 ^ 22)%Z -> (forall i, i < n -> quantizable scale (elem_at din inm i)) ->
  quantize_naive RM_NEAREST din DT_UINT2 scale zp xi (elements din inm) refm = UB.
Proof.
  intros n Hn HL Hsc Hz HI. unfold quantize_naive, elements. fold n. set (xs := map (elem_at din inm) (seq 0 n)).
  assert (Hxs : length xs = n) by (unfold xs; rewrite map_length, seq_length; reflexivity).
  rewrite (naive_bytes_ok _ (fun i => quant_code DT_UINT2 (val scale) zp (val (elem_at din inm i)))).
  - cbn [bind]. rewrite map_length, seq_length, Hxs, HL. rewrite bytes_for_per_byte by (left; reflexivity). cbn [per_byte]. change (4 - 1) with 3. destruct (Nat.leb_spec n ((n + 3) / 4)); auto. lia.
  - rewrite Hxs. intros k Hk. unfold xs. rewrite (nth_indep _ f_zero (elem_at din inm 0)) by (rewrite map_length, seq_length; auto). rewrite map_nth, seq_nth by auto. cbn [naive_Q].
    change (naive_nearest DT_UINT2 scale zp (elem_at din inm (0 + k))) with (q_nearest_i64 (code_max DT_UINT2) (fdiv f_one scale) zp (elem_at din inm (0 + k))).
    rewrite (q_nearest_i64_ok scale (elem_at din inm (0 + k)) zp Hsc (HI k Hk)) by (cbn; lia). reflexivity.
Qed.

(** bf16 data and stochastic rounding: the reference rounds the product to bf16 first, and can be two codes away: 209/128 with scale 0.013288103. *)
Theorem C53_reference_bf16_stochastic_differs A : let inm := le_bytes 2 0x3FD1 in let scale := f32_of_bits 1012512344 in
  returns inm [0%Z] (quantize_call A 1 0 DT_BF16 DT_UINT8 scale 0 RM_STOCHASTIC (f32_of_bits 0x3F700000) inm [0%Z]) (Ok [122%Z]) /\
  quantize_naive RM_STOCHASTIC DT_BF16 DT_UINT8 scale 0 (fun _ => f32_of_bits 0x3E800000) (elements DT_BF16 inm) [0%Z] = Ok [124%Z].
Proof. cbv zeta. split; [apply returns_one; destruct A; vm_compute; reflexivity|vm_compute; reflexivity]. Qed.

(** ** C54: constant data *)
Local Open Scope R_scope.
Lemma one_scaled c : fmt32 c -> RN32 (c * RN32 (1 / val f_one)) = c.
Proof. intros H. destruct f_one_ok as [_ ->]. replace (1 / 1) with 1 by lra. rewrite (RN32_fmt 1) by (apply (fmt32_int 1); lia). rewrite Rmult_1_r. apply RN32_fmt, H. Qed.
Lemma one_is_good : good_scale f_one.
Proof.
  destruct f_one_ok as [_ V]. split; rewrite V; [lra|]. replace (1 / 1) with 1 by lra. rewrite (RN32_fmt 1) by (apply (fmt32_int 1); lia).
  rewrite Rabs_pos_eq by lra. change 1 with (bpow radix2 0). apply bpow_lt. lia.
Qed.

(** Parameters from constant data, then quantize and dequantize: what comes back is the constant rounded to an integer and clipped to [- zero point, largest code - zero point]. *)
Theorem C54_constant_round_trip a blocks A nt oaddr A2 nt2 oaddr2 din dq scale zp thr inm pk p extra outm r c :
  let n := numel DT_F32 (length outm) in
  finite_data din inm n -> (0 < n)%nat -> block_cover n blocks -> (forall i, (i < n)%nat -> val (elem_at din inm i) = c) ->
  Rabs c < bpow radix2 30 -> Rabs c <> pred_half ->
  compute_quant_config_from_data a din dq inm blocks = Ok (scale, zp) ->
  buffers_ok nt din dq inm pk -> numel din (length inm) = n -> sizes_ok (length outm) n nt2 -> Forall is_byte extra -> extra <> [] ->
  returns inm pk (quantize_call A nt oaddr din dq scale zp RM_NEAREST thr inm pk) (Ok p) ->
  returns (p ++ extra) outm (dequantize_call A2 nt2 oaddr2 dq DT_F32 scale zp RO_SET (length p) outm) r ->
  zp = (code_max dq / 2)%Z /\ val scale = 1 /\
  exists o, r = Ok o /\ length o = length outm /\
    forall i, (i < n)%nat -> let back := clamp (- zp) (code_max dq - zp) (round_half_away c) in
      val (elem_at DT_F32 o i) = IZR back /\
      (* close when the constant is in the range, ... *)
      (IZR (- zp) - / 2 <= c <= IZR (code_max dq - zp) + / 2 -> Rabs (val (elem_at DT_F32 o i) - c) <= / 2) /\
      (* ... exact when it is an integer of the range, ... *)
      (forall k, c = IZR k -> (- zp <= k <= code_max dq - zp)%Z -> val (elem_at DT_F32 o i) = c) /\
      (* ... and clipped otherwise. *)
      (IZR (code_max dq - zp) <= c -> val (elem_at DT_F32 o i) = IZR (code_max dq - zp)) /\ (c <= IZR (- zp) -> val (elem_at DT_F32 o i) = IZR (- zp)).
Proof.
  intros n HD Hn HBl HC Hc Hp EC HBu Hnn HS2 He Hne HQ HDq. pose proof HBu as (Hfp & Hq & _).
  rewrite (C24_constant a din dq inm n blocks c Hfp Hq HD Hn HBl HC) in EC. injection EC as <- <-.
  assert (M : mid_code dq = (code_max dq / 2)%Z) by (destruct Hq as [->|[->| ->]]; reflexivity).
  split; auto. split; [apply f_one_ok|].
  pose proof (code_max_range dq Hq) as Hm. set (z := mid_code dq) in *. assert (Hz : (0 <= z <= 127)%Z) by (rewrite M; lia).
  assert (F : forall i, (i < n)%nat -> fmt32 c) by (intros i Hi; rewrite <- (HC i Hi); apply val_fmt).
  assert (Sc : forall i, (i < n)%nat -> scaled (val f_one) (val (elem_at din inm i)) = c).
  { intros i Hi. unfold scaled. rewrite (HC i Hi). apply one_scaled. apply (F i Hi). }
  assert (HI : forall i, (i < numel din (length inm))%nat -> input_ok A RM_NEAREST f_one z thr (elem_at din inm i)).
  { rewrite Hnn. intros i Hi. split; [|lia]. split; [split|].
    - apply HD; auto.
    - rewrite Sc by auto. exact Hc.
    - intros _. rewrite Sc by auto. exact Hp. }
  destruct (C14_codes_round_trip A A2 nt nt2 oaddr oaddr2 din dq f_one f_one z z RM_NEAREST thr inm pk p extra outm r HBu one_is_good ltac:(discriminate) ltac:(lia) HI HQ (eq_sym Hnn) HS2 He Hne ltac:(lia) HDq) as (o & -> & HL & HO).
  rewrite Hnn in HO. exists o. split; auto. split; auto. intros i Hi back.
  assert (V : val (elem_at DT_F32 o i) = IZR back).
  { cbn [elem_at]. rewrite HO by auto. cbn [expected_code]. unfold quant_code. rewrite Sc by auto.
    replace (clamp 0 (code_max dq) (round_half_away c + z) - z)%Z with back by (unfold back, clamp; lia).
    assert (Bk : (Z.abs back <= 255)%Z) by (unfold back, clamp; lia).
    destruct (f32_of_Z_exact back ltac:(lia)) as [Fb Vb]. destruct f_one_ok as [Fo Vo].
    assert (Rb : RN32 (IZR back * 1) = IZR back) by (rewrite Rmult_1_r; apply RN32_fmt, fmt32_int; lia).
    assert (Ba : Rabs (IZR back) <= 255) by (rewrite <- abs_IZR; apply (IZR_le _ 255), Bk).
    destruct (fmul_ok (f32_of_Z back) f_one Fb Fo) as [_ ->]; rewrite Vb, Vo, Rb; auto.
    apply Rle_lt_trans with (1 := Ba). unfold max32. apply Rlt_trans with (bpow radix2 8); [change (bpow radix2 8) with 256; lra|apply bpow_lt; lia]. }
  rewrite V. split; auto.
  assert (RB : Rabs (IZR (round_half_away c) - c) <= / 2).
  { rewrite round_half_away_ZnearestA. replace (IZR (ZnearestA c) - c) with (- (c - IZR (ZnearestA c))) by ring. rewrite Rabs_Ropp. apply Znearest_half. }
  apply Rabs_le_inv in RB.
  split; [|split; [|split]].
  - intros [C1 C2]. unfold back, clamp. set (k := round_half_away c) in *.
    destruct (Z.le_gt_cases k (- z)) as [K1|K1]; [|destruct (Z.le_gt_cases (code_max dq - z) k) as [K2|K2]].
    + replace (Z.max (- z) (Z.min (code_max dq - z) k)) with (- z)%Z by lia. apply IZR_le in K1. apply Rabs_le. lra.
    + replace (Z.max (- z) (Z.min (code_max dq - z) k)) with (code_max dq - z)%Z by lia. apply IZR_le in K2. apply Rabs_le. lra.
    + replace (Z.max (- z) (Z.min (code_max dq - z) k)) with k by lia. apply Rabs_le. lra.
  - intros k -> Hk. unfold back. rewrite rha_IZR. f_equal. unfold clamp. lia.
  - intros C1. apply rha_le in C1. rewrite rha_IZR in C1. f_equal. unfold back, clamp. lia.
  - intros C1. apply rha_le in C1. rewrite rha_IZR in C1. f_equal. unfold back, clamp. lia.
Qed.
