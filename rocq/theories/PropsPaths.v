(** PropsPaths.v -- C10 (vector and scalar paths), C36 (NaN, infinities, huge values), C34 (zero point width), C11. *)
From Coq Require Import ZArith List Lia Bool Arith ZifyBool ZifyNat Reals Lra.
From Flocq Require Import Core Binary Bits.
From Verif Require Import Base Floats Simd Dtypes Spec ApiSpec QuantKernels DequantKernels ExecFacts FloatFacts QuantFacts QuantKernelFacts
  QuantGenericFacts DequantFacts DequantGenericFacts QuantLanes Context ContextFacts Footprint QuantizeFacts DequantizeFacts Api
  FloatFacts2 FloatFacts3 PropsQuantize PathSpec.
Import ListNotations.
Local Open Scope R_scope.

(** ** Lanes on every input *)
Lemma inv_nonzero scale : good_scale scale -> val (fdiv f_one scale) <> 0.
Proof.
  intros Hs. destruct (inv_ok scale Hs) as [F E]. rewrite E. destruct Hs as [H1 H2].
  assert (Hb : Rabs (val scale) < bpow radix2 128) by (apply (abs_B2R_lt_emax 24 128)).
  assert (F128 : fmt32 (bpow radix2 (-128))) by (apply fmt32_bpow; lia).
  assert (P : 0 < Rabs (val scale)) by (apply Rabs_pos_lt; auto).
  assert (L : bpow radix2 (-128) <= Rabs (RN32 (1 / val scale))).
  { rewrite <- (RN32_fmt _ F128). unfold RN32. rewrite <- round_NE_abs by apply FLT_exp_valid, eq_refl. apply RN32_le.
    unfold Rdiv. rewrite Rmult_1_l, Rabs_inv. change (bpow radix2 (-128)) with (bpow radix2 (Z.opp 128)). rewrite bpow_opp. apply Rinv_le_contravar; lra. }
  intros Z. rewrite Z, Rabs_R0 in L. pose proof (bpow_gt_0 radix2 (-128)). lra.
Qed.

Lemma wrap_indef zp : (Z.abs zp <= 2 ^ 22)%Z -> forall mx, (0 <= mx <= 255)%Z ->
  Z.max 0 (Z.min mx (wrap32 (-2147483648 + zp))) = if (zp <? 0)%Z then mx else 0%Z.
Proof.
  intros H mx Hm. unfold wrap32. destruct (Z.ltb_spec zp 0).
  - assert ((-2147483648 + zp + 2147483648) mod 4294967296 = zp + 4294967296)%Z; [|lia].
    symmetry. apply Z.mod_unique with (q := (-1)%Z); lia.
  - rewrite Z.mod_small by lia. lia.
Qed.

Lemma lane_x86_all d scale zp x : is_q d -> good_scale scale -> (Z.abs zp <= 2 ^ 22)%Z ->
  lane_x86 (code_max d) (fdiv f_one scale) zp x = x86_vector_code d scale zp x.
Proof.
  intros Hd Hs Hz. pose proof (code_max_range d Hd) as Hm. destruct (inv_ok scale Hs) as [Fi Ei].
  unfold lane_x86. set (p := fmul x (fdiv f_one scale)).
  change (cvttps (fadd p (if fge p f_zero then f_half else f_nhalf))) with (vec_int p).
  unfold x86_vector_code. set (y := scaled (val scale) (val x)).
  assert (Hy : RN32 (val x * val (fdiv f_one scale)) = y) by (rewrite Ei; reflexivity).
  destruct (is_finite 24 128 x) eqn:Fx; cbn [andb].
  - destruct (fmul_cases x (fdiv f_one scale) Fx Fi) as [(Fp & Ep & _)|[Ep Hb]]; fold p in Ep; rewrite ?Hy in Ep; [fold p in Fp|rewrite Hy in Hb].
    + destruct (Rlt_bool_spec (Rabs y) (bpow radix2 31)) as [L|G].
      * pose proof (vec_int_finite p Fp) as HV. rewrite Ep in HV. destruct (HV L) as [B ->].
        pose proof (val_fmt p) as Fm. rewrite Ep in Fm.
        destruct (Req_bool_spec (Rabs y) pred_half) as [E|E].
        { destruct vround_pred_half as [V1 V2]. assert (PH : 0 < pred_half).
          { unfold pred_half. assert (bpow radix2 (-25) < bpow radix2 (-1)) by (apply bpow_lt; lia). change (bpow radix2 (-1)) with (/ 2) in *. lra. }
          destruct (Rlt_bool_spec y 0) as [N|N].
          - rewrite Rabs_left in E by auto. assert (y = - pred_half) by lra. rewrite H, vround_R_opp, V1 by lra.
            rewrite wrap32_id by lia. reflexivity.
          - rewrite Rabs_pos_eq in E by auto. rewrite E, V1. rewrite wrap32_id by lia. reflexivity. }
        { destruct (Rlt_or_le (Rabs y) (bpow radix2 30)) as [S|S].
          - destruct (vround_clamp y zp (code_max d) Fm S E Hz Hm) as [B2 E2].
            pose proof (rha_bound y S). rewrite !wrap32_id by lia. rewrite <- E2. reflexivity.
          - assert (S' : bpow radix2 24 <= Rabs y) by (apply Rle_trans with (bpow radix2 30); auto; apply bpow_le; lia).
            destruct (vround_R_huge y Fm S') as (-> & -> & _). reflexivity. }
      * rewrite vec_int_big by (rewrite ?Ep; auto). apply wrap_indef; auto.
    + rewrite Rlt_bool_false.
      2:{ apply Rle_trans with max32; auto. unfold max32. apply bpow_le. lia. }
      rewrite vec_int_nonfinite; [apply wrap_indef; auto|]. rewrite Ep. unfold finite. cbn. discriminate.
  - assert (Nx : ~ finite x) by (unfold finite; rewrite Fx; discriminate).
    rewrite vec_int_nonfinite; [apply wrap_indef; auto|]. apply fmul_nonfinite; auto. apply inv_nonzero; auto.
Qed.

Lemma sign_inv scale : good_scale scale -> Bsign 24 128 (fdiv f_one scale) = Bsign 24 128 scale.
Proof.
  intros Hs. destruct (inv_ok scale Hs) as [F _]. destruct Hs as [H1 H2]. destruct f_one_ok as [F1 E1].
  unfold fdiv, b32_div in *. match goal with |- Bsign _ _ (Bdiv _ _ ?a ?b ?c ?d _ _) = _ => pose proof (Bdiv_correct 24 128 a b c d f_one scale H1) as C end.
  change (SpecFloat.emin 24 128) with (-149)%Z in C. cbn [BinarySingleNaN.round_mode] in C.
  unfold val, RN32, max32 in *. rewrite E1 in C. rewrite Rlt_bool_true in C by exact H2. destruct C as (_ & _ & C).
  rewrite C; [change (Bsign 24 128 f_one) with false; apply xorb_false_l|]. unfold finite in F. match goal with |- is_nan _ _ ?t = _ => destruct t; cbn in *; auto; discriminate end.
Qed.

Lemma val_neg_sign x : finite x -> val x <> 0 -> Rlt_bool (val x) 0 = Bsign 24 128 x.
Proof.
  unfold finite, val. destruct x as [s|s|s pl e|s m e e0]; cbn [is_finite B2R Bsign]; intros F N; try discriminate; try lra.
  destruct s; cbn [cond_Zopp].
  - apply Rlt_bool_true. apply F2R_lt_0. cbn. lia.
  - apply Rlt_bool_false. apply F2R_ge_0. cbn. lia.
Qed.

Lemma lane_neon_all scale zp x : good_scale scale -> (Z.abs zp <= 2 ^ 22)%Z ->
  lane_neon (fdiv f_one scale) zp x = neon_vector_code scale zp x.
Proof.
  intros Hs Hz. destruct (inv_ok scale Hs) as [Fi Ei]. pose proof (inv_nonzero scale Hs) as Ni. pose proof (sign_inv scale Hs) as Si.
  unfold lane_neon. set (inv := fdiv f_one scale) in *. set (p := fmul x inv).
  unfold neon_vector_code. set (y := scaled (val scale) (val x)).
  assert (Hy : RN32 (val x * val inv) = y) by (rewrite Ei; reflexivity).
  assert (W1 : forall z, Simd.sat_u8 (Simd.sat_i16 z) = clamp 0 255 z) by (intros; unfold Simd.sat_u8, Simd.sat_i16, clamp; lia).
  rewrite W1.
  assert (WP : clamp 0 255 (wrap32 (2147483647 + zp)) = if (0 <? zp)%Z then 0%Z else 255%Z).
  { unfold wrap32, clamp. destruct (Z.ltb_spec 0 zp).
    - assert ((2147483647 + zp + 2147483648) mod 4294967296 = zp - 1)%Z; [|lia]. symmetry. apply Z.mod_unique with (q := 1%Z); lia.
    - rewrite Z.mod_small by lia. lia. }
  assert (WN : clamp 0 255 (wrap32 (-2147483648 + zp)) = if (zp <? 0)%Z then 255%Z else 0%Z) by (apply wrap_indef; auto; lia).
  assert (INF : forall s, vcvta (B754_infinity 24 128 s) = if s then (-2147483648)%Z else 2147483647%Z) by (intros [|]; reflexivity).
  assert (HINF : forall s, clamp 0 255 (wrap32 (vcvta (B754_infinity 24 128 s) + zp)) =
     if s then (if (zp <? 0)%Z then 255%Z else 0%Z) else (if (0 <? zp)%Z then 0%Z else 255%Z)).
  { intros s. rewrite INF. destruct s; auto. }
  destruct (is_nan 24 128 x) eqn:Nx.
  - assert (Ep : vcvta p = 0%Z). { unfold p. destruct x; try discriminate Nx. destruct inv; reflexivity. }
    rewrite Ep. rewrite wrap32_id by lia. reflexivity.
  - destruct (is_finite 24 128 x) eqn:Fx; cbn [andb].
    + destruct (fmul_cases x inv Fx Fi) as [(Fp & Ep & _)|[Ep Hb]]; fold p in Ep; rewrite ?Hy in Ep; [|rewrite Hy in Hb].
      * fold p in Fp. unfold vcvta. rewrite fround_Z by auto. rewrite Ep.
        destruct (Rlt_bool_spec (Rabs y) (bpow radix2 31)) as [L|G].
        { assert (B : (Z.abs (round_half_away y) < 2 ^ 31)%Z).
          { destruct (Rlt_or_le (Rabs y) (bpow radix2 30)) as [S|S]; [apply rha_bound in S; lia|].
            assert (S' : bpow radix2 24 <= Rabs y) by (apply Rle_trans with (bpow radix2 30); auto; apply bpow_le; lia).
            pose proof (val_fmt p) as Fm. rewrite Ep in Fm. destruct (vround_R_huge y Fm S') as (_ & -> & E).
            apply lt_IZR. rewrite abs_IZR, <- E. exact L. }
          rewrite Z.min_r, Z.max_r by lia. reflexivity. }
        { assert (Hne : y <> 0). { intros E. rewrite E, Rabs_R0 in G. pose proof (bpow_gt_0 radix2 31). lra. }
          assert (Sg : xorb (Bsign 24 128 x) (Bsign 24 128 scale) = Rlt_bool y 0).
          { rewrite <- Si, <- Ep. rewrite val_neg_sign by (rewrite ?Ep; auto).
            unfold p, fmul, b32_mult. match goal with |- _ = Bsign _ _ (Bmult _ _ ?a ?b ?c ?d _ _) => pose proof (Bmult_correct 24 128 a b c d x inv) as C end.
            change (SpecFloat.emin 24 128) with (-149)%Z in C. cbn [BinarySingleNaN.round_mode] in C.
            destruct (Rlt_bool _ _).
            - destruct C as (_ & _ & C). symmetry. apply C. unfold p, fmul, b32_mult, finite in Fp.
              match goal with |- is_nan _ _ ?t = _ => destruct t; cbn in Fp |- *; auto; discriminate Fp end.
            - exfalso. unfold p, fmul, b32_mult in Fp. unfold finite in Fp. match type of C with B2FF _ _ ?t = _ => destruct t; cbn in C, Fp; discriminate end. }
          rewrite Sg. pose proof (rha_error y) as RE. destruct (Rlt_bool_spec y 0) as [N|N].
          - rewrite Rabs_left in G by auto.
            assert (round_half_away y <= -2147483648)%Z.
            { rewrite <- (rha_IZR (-2147483648)). apply rha_le. change (IZR (-2147483648)) with (- bpow radix2 31). lra. }
            rewrite Z.min_r, Z.max_l by lia. exact WN.
          - rewrite Rabs_pos_eq in G by auto.
            assert (2147483648 <= round_half_away y)%Z.
            { rewrite <- (rha_IZR 2147483648). apply rha_le. change (IZR 2147483648) with (bpow radix2 31). lra. }
            rewrite Z.min_l, Z.max_r by lia. exact WP. }
      * rewrite Rlt_bool_false.
        2:{ apply Rle_trans with max32; auto. unfold max32. apply bpow_le. lia. }
        rewrite Ep, HINF, Si. reflexivity.
    + destruct x as [s|s|s pl e|s m e e0]; try discriminate Fx; try discriminate Nx.
      assert (Ep : p = B754_infinity 24 128 (xorb s (Bsign 24 128 inv))).
      { unfold p. clear -Fi Ni. unfold finite, val in *. destruct inv; cbn in *; try discriminate; try lra. reflexivity. }
      rewrite Ep, HINF, Si. reflexivity.
Qed.

Lemma lane_all A d scale zp x : is_q d -> (A = NEON -> d = DT_UINT8) -> good_scale scale -> (Z.abs zp <= 2 ^ 22)%Z ->
  lane A (code_max d) (fdiv f_one scale) (wrap32 zp) x = vector_code A d scale zp x.
Proof.
  intros Hd HA Hs Hz. rewrite wrap32_id by lia. destruct A; cbn [lane vector_code]; try (apply lane_x86_all; auto).
  apply lane_neon_all; auto.
Qed.

Lemma codes_per_byte_per d : quant_type d -> codes_per_byte d = per_byte d.
Proof. intros [->|[->| ->]]; reflexivity. Qed.

Lemma vector_path_owner A din dout oaddr n nt t i : quant_type dout -> (nt > 0)%nat -> (t < nt)%nat ->
  let b := part_bound (per_byte dout) n nt in
  (b t <= i < b (S t))%nat ->
  vector_path A din dout oaddr n nt i =
  q_vec A din dout RM_NEAREST (oaddr + Z.of_nat (b t / per_byte dout)) (b (S t) - b t) (i - b t).
Proof.
  intros Hq Hnt Ht b Hi. unfold vector_path. rewrite codes_per_byte_per by auto. fold b.
  assert (Hpe : (per_byte dout > 0)%nat) by (clear -Hq; destruct Hq as [->|[->| ->]]; cbn; lia).
  destruct (q_vec _ _ _ _ _ _ _) eqn:E.
  - apply existsb_exists. exists t. split; [apply in_seq; lia|]. rewrite E. cbv zeta. lia.
  - destruct (existsb _ _) eqn:X; auto. apply existsb_exists in X. destruct X as (u & Hu & X). apply in_seq in Hu. cbv zeta in X.
    apply andb_prop in X. destruct X as [X X2]. assert (u = t); [|congruence].
    destruct (Nat.lt_trichotomy u t) as [L|[L|L]]; auto; exfalso.
    + pose proof (part_mono' (per_byte dout) n nt Hpe Hnt (S u) t). fold b in H. lia.
    + pose proof (part_mono' (per_byte dout) n nt Hpe Hnt (S t) u). fold b in H. lia.
Qed.

Lemma owner_exists pe n nt i : (pe > 0)%nat -> (nt > 0)%nat -> (i < n)%nat ->
  exists t, (t < nt)%nat /\ (part_bound pe n nt t <= i < part_bound pe n nt (S t))%nat.
Proof.
  intros Hpe Hnt Hi.
  assert (G : forall k, (k <= nt)%nat -> (i < part_bound pe n nt k)%nat -> exists t, (t < k)%nat /\ (part_bound pe n nt t <= i < part_bound pe n nt (S t))%nat).
  { induction k as [|k IH]; intros Hk Hb; [rewrite part_0 in Hb by auto; lia|].
    destruct (le_lt_dec (part_bound pe n nt k) i) as [L|L]; [exists k; lia|].
    destruct IH as (t & H1 & H2); [lia|auto|]. exists t. lia. }
  destruct (G nt (le_n _)) as (t & H1 & H2); [rewrite part_last; auto|]. eauto.
Qed.

Lemma vector_code_range A d scale zp x : quant_type d -> (A = NEON -> d = DT_UINT8) -> (0 <= vector_code A d scale zp x <= code_max d)%Z.
Proof.
  intros Hd HA. pose proof (code_max_range d Hd).
  assert (X : (0 <= x86_vector_code d scale zp x <= code_max d)%Z).
  { unfold x86_vector_code, clamp. destruct (_ && _); [destruct (Req_bool _ _)|destruct (_ <? _)%Z]; lia. }
  destruct A; cbn [vector_code]; auto. rewrite (HA eq_refl) in *. change (code_max DT_UINT8) with 255%Z in *.
  unfold neon_vector_code, clamp. destruct (is_nan _ _ _); [lia|]. destruct (_ && _); [lia|]. destruct (xorb _ _); [destruct (zp <? 0)%Z|destruct (0 <? zp)%Z]; lia.
Qed.

(** A general result for nearest rounding: for every input (NaN, infinities, huge values) on a vector path, and every input
    with a defined conversion on a scalar path. *)
Lemma quantize_every_byte A nt oaddr din dout scale zp thr inm outm r :
  buffers_ok nt din dout inm outm -> good_scale scale -> (Z.abs zp <= 2 ^ 22)%Z ->
  let n := numel din (length inm) in
  (forall i, (i < n)%nat -> vector_path A din dout oaddr n nt i = false -> quantizable scale (elem_at din inm i)) ->
  returns inm outm (quantize_call A nt oaddr din dout scale zp RM_NEAREST thr inm outm) r ->
  let C i := if vector_path A din dout oaddr n nt i then vector_code A dout scale zp (elem_at din inm i)
             else quant_code dout (val scale) zp (val (elem_at din inm i)) in
  r = Ok (map (byte_of dout (cut n C)) (seq 0 (length outm))) /\ forall i, (0 <= C i <= code_max dout)%Z.
Proof.
  intros (Hfp & Hq & Hb & Hl & HS) Hsc Hz n HI HR C. unfold quantize_call in HR.
  assert (Hnt : (nt > 0)%nat) by (destruct HS; lia).
  assert (Hpe : (per_byte dout > 0)%nat) by (clear -Hq; destruct Hq as [->|[->| ->]]; cbn; lia).
  assert (L : forall t, (t < nt)%nat -> (part_bound (per_byte dout) n nt (S t) <= n)%nat) by (intros t Ht; apply part_le; auto).
  assert (HN : forall i, vector_path A din dout oaddr n nt i = true -> has_vec A din dout RM_NEAREST = true).
  { intros i E. unfold vector_path in E. apply existsb_exists in E. destruct E as (t & _ & E). cbv zeta in E. apply andb_prop in E. destruct E as [_ E].
    eapply q_vec_has; eauto. }
  apply quantize_core_pos with (C := C) in HR; auto.
  - rewrite skipn_all, app_nil_r in HR. split; [exact HR|].
    intros j. unfold C. destruct (vector_path A din dout oaddr n nt j) eqn:E; [|apply quant_code_range; auto].
    apply vector_code_range; auto. intros ->. apply HN in E. eapply has_vec_neon; eauto.
  - intros t i Ht Hi E. fold n in Hi, E. specialize (L t Ht). cbn [thr_of].
    rewrite <- (vector_path_owner A din dout oaddr n nt t i Hq Hnt Ht Hi) in E. unfold C. rewrite E.
    apply q_scalar_nearest_ok; auto. apply HI; auto. lia.
  - eexists. cbn [thr_of]. apply q_scalar_nearest_ok; auto. apply quantizable_zero.
  - intros t i Ht Hi E. fold n in Hi, E. specialize (L t Ht).
    pose proof (vector_path_owner A din dout oaddr n nt t i Hq Hnt Ht Hi) as EV. rewrite E in EV. unfold C. rewrite EV.
    apply lane_all; auto. intros ->. apply HN in EV. eapply has_vec_neon; eauto.
Qed.

Theorem quantize_every_input A nt oaddr din dout scale zp thr inm outm r :
  buffers_ok nt din dout inm outm -> good_scale scale -> (Z.abs zp <= 2 ^ 22)%Z ->
  let n := numel din (length inm) in
  (forall i, (i < n)%nat -> vector_path A din dout oaddr n nt i = false -> quantizable scale (elem_at din inm i)) ->
  returns inm outm (quantize_call A nt oaddr din dout scale zp RM_NEAREST thr inm outm) r ->
  exists o, r = Ok o /\ length o = length outm /\
    forall i, (i < n)%nat ->
      code_at dout o i = if vector_path A din dout oaddr n nt i then vector_code A dout scale zp (elem_at din inm i)
                         else quant_code dout (val scale) zp (val (elem_at din inm i)).
Proof.
  intros HB Hsc Hz n HI HR. destruct (quantize_every_byte _ _ _ _ _ _ _ _ _ _ _ HB Hsc Hz HI HR) as [E HC]. fold n in E, HC.
  destruct HB as (Hfp & Hq & Hb & Hl & HS).
  eexists. split; [exact E|]. split; [rewrite map_length, seq_length; auto|].
  intros i Hi. rewrite Hl. rewrite <- (app_nil_r (map _ _)). rewrite code_at_byte_of; auto.
  - fold n. rewrite cut_lt by auto. reflexivity.
  - rewrite bytes_for_per_byte by auto. fold n. clear -Hi Hq. destruct Hq as [->|[->| ->]]; cbn [per_byte]; lia.
Qed.

(** ** C10 *)
Lemma pred_half_pos : 0 < pred_half < / 2.
Proof.
  unfold pred_half. assert (bpow radix2 (-25) < bpow radix2 (-1)) by (apply bpow_lt; lia). change (bpow radix2 (-1)) with (/ 2) in *.
  pose proof (bpow_gt_0 radix2 (-25)). lra.
Qed.

(** Every element gets the documented code, except exactly when an x86 vector iteration meets a scaled value of +-(0.5 - 2^-25):
    then the rounded value is +-1 instead of 0. *)
Theorem C10_exact_codes A nt oaddr din dout scale zp thr inm outm r :
  buffers_ok nt din dout inm outm -> good_scale scale -> (Z.abs zp <= 2 ^ 22)%Z ->
  let n := numel din (length inm) in
  (forall i, (i < n)%nat -> quantizable scale (elem_at din inm i)) ->
  returns inm outm (quantize_call A nt oaddr din dout scale zp RM_NEAREST thr inm outm) r ->
  exists o, r = Ok o /\ length o = length outm /\
    forall i, (i < n)%nat ->
      let y := scaled (val scale) (val (elem_at din inm i)) in
      (x86_vector A -> vector_path A din dout oaddr n nt i = true -> y = pred_half ->
         code_at dout o i = clamp 0 (code_max dout) (1 + zp) /\ round_half_away y = 0%Z) /\
      (x86_vector A -> vector_path A din dout oaddr n nt i = true -> y = - pred_half ->
         code_at dout o i = clamp 0 (code_max dout) (-1 + zp) /\ round_half_away y = 0%Z) /\
      (~ (x86_vector A /\ vector_path A din dout oaddr n nt i = true /\ Rabs y = pred_half) ->
         code_at dout o i = clamp 0 (code_max dout) (round_half_away y + zp)).
Proof.
  intros HB Hsc Hz n HI HR. pose proof pred_half_pos as PH. destruct vround_pred_half as [_ RH].
  destruct (quantize_every_input A nt oaddr din dout scale zp thr inm outm r HB Hsc Hz) as (o & Eo & Lo & HC); auto.
  exists o. split; auto. split; auto. intros i Hi y. specialize (HC i Hi). fold n in HC.
  assert (Hx := HI i Hi). destruct Hx as [Fx Bx]. fold y in Bx.
  assert (B31 : Rlt_bool (Rabs y) (bpow radix2 31) = true).
  { apply Rlt_bool_true. eapply Rlt_trans; [exact Bx|]. apply bpow_lt. lia. }
  assert (V : forall A, x86_vector A -> vector_code A dout scale zp (elem_at din inm i) =
     if Req_bool (Rabs y) pred_half then clamp 0 (code_max dout) ((if Rlt_bool y 0 then -1 else 1) + zp)
     else clamp 0 (code_max dout) (round_half_away y + zp)).
  { intros A' HA. assert (E : vector_code A' dout scale zp (elem_at din inm i) = x86_vector_code dout scale zp (elem_at din inm i))
      by (destruct HA as [->|[->|[->| ->]]]; reflexivity).
    rewrite E. unfold x86_vector_code. fold y. unfold finite in Fx. rewrite Fx. cbn [andb]. rewrite B31.
    pose proof (rha_bound y Bx). destruct (Req_bool _ _); auto. rewrite wrap32_id by lia. reflexivity. }
  split; [|split].
  - intros HA HV Ey. rewrite HV, (V A HA) in HC. rewrite Ey in *. rewrite Rabs_pos_eq in HC by lra. rewrite Req_bool_true in HC by auto.
    rewrite Rlt_bool_false in HC by lra. auto.
  - intros HA HV Ey. rewrite HV, (V A HA) in HC. rewrite Ey in *. rewrite Rabs_Ropp, Rabs_pos_eq in HC by lra. rewrite Req_bool_true in HC by auto.
    rewrite Rlt_bool_true in HC by lra. rewrite rha_opp, RH. auto.
  - intros HN. destruct (vector_path A din dout oaddr n nt i) eqn:HV; [|exact HC].
    rewrite HC. destruct A; cbn [vector_code];
      try (match goal with |- x86_vector_code _ _ _ _ = _ => idtac end;
           match goal with HN : ~ (x86_vector ?B /\ _) |- _ =>
             assert (HA : x86_vector B \/ B = GENERIC) by (unfold x86_vector; tauto);
             destruct HA as [HA|HA]; [|exfalso; clear -HV HA; unfold vector_path in HV; apply existsb_exists in HV; destruct HV as (t & _ & HV); cbv zeta in HV;
               apply andb_prop in HV; destruct HV as [_ HV]; apply q_vec_has in HV; destruct din, dout; cbn in HV; discriminate];
             specialize (V B HA); cbn [vector_code] in V; rewrite V; rewrite Req_bool_false; [reflexivity|intros E; apply HN; auto] end).
    unfold neon_vector_code. fold y. unfold finite in Fx. rewrite Fx. rewrite B31. cbn [andb].
    assert (NN : is_nan 24 128 (elem_at din inm i) = false) by (destruct (elem_at din inm i); cbn in Fx |- *; auto; discriminate).
    rewrite NN. pose proof (rha_bound y Bx). rewrite wrap32_id by lia.
    assert (dout = DT_UINT8); [|subst dout; reflexivity].
    clear -HV. unfold vector_path in HV. apply existsb_exists in HV. destruct HV as (t & _ & HV). cbv zeta in HV. apply andb_prop in HV. destruct HV as [_ HV].
    apply q_vec_has in HV. eapply has_vec_neon; eauto.
Qed.

(** Away from these two values the output bytes do not depend on the kernel set, the thread count, the buffer address or the schedule. *)
Theorem C10_paths_agree A A' nt nt' oaddr oaddr' din dout scale zp thr thr' inm outm outm' r r' :
  buffers_ok nt din dout inm outm -> buffers_ok nt' din dout inm outm' -> good_scale scale -> (Z.abs zp <= 2 ^ 22)%Z ->
  (forall i, (i < numel din (length inm))%nat ->
     quantizable scale (elem_at din inm i) /\ Rabs (scaled (val scale) (val (elem_at din inm i))) <> pred_half) ->
  returns inm outm (quantize_call A nt oaddr din dout scale zp RM_NEAREST thr inm outm) r ->
  returns inm outm' (quantize_call A' nt' oaddr' din dout scale zp RM_NEAREST thr' inm outm') r' ->
  r = r' /\ exists o, r = Ok o.
Proof.
  intros (Hfp & Hq & Hb & Hl & HS) (_ & _ & _ & Hl' & HS') Hsc Hz HI HR HR'. unfold quantize_call in *.
  apply quantize_bytes in HR; auto; try discriminate; [|intros i Hi; destruct (HI i Hi); split; auto; split; auto].
  apply quantize_bytes in HR'; auto; try discriminate; [|intros i Hi; destruct (HI i Hi); split; auto; split; auto].
  rewrite skipn_all, app_nil_r in HR. rewrite skipn_all, app_nil_r in HR'. rewrite Hl in HR. rewrite Hl' in HR'.
  split; [rewrite HR, HR'; reflexivity|eauto].
Qed.

(** The exception is real: 65 times the same float, next below 0.5, with scale 1 and zero point 0.  Within one call the first element gets code 1
    and the last gets code 0; with 65 threads instead of one the first element gets code 0. *)
Definition half_below : f32 := f32_of_bits 0x3effffff.
Definition sixty_five : mem := concat (repeat [255; 255; 255; 62]%Z 65).
Lemma half_below_ok : finite half_below /\ val half_below = pred_half.
Proof. split; [reflexivity|]. unfold val, half_below, pred_half. cbn. unfold F2R. cbn. lra. Qed.
Lemma sixty_five_elem i : (i < 65)%nat -> elem_at DT_F32 sixty_five i = half_below.
Proof.
  intros Hi. unfold elem_at, f32_at, half_below. f_equal.
  assert (H : forallb (fun i => (le_val (slice (4 * i) 4 sixty_five) =? 0x3effffff)%Z) (seq 0 65) = true) by (vm_compute; reflexivity).
  rewrite forallb_forall in H. apply Z.eqb_eq, H, in_seq. lia.
Qed.
Lemma good_one' : good_scale f_one.
Proof.
  destruct f_one_ok as [_ E]. unfold good_scale. rewrite E. assert (F1 : fmt32 1) by (apply (fmt32_int 1); lia).
  replace (1 / 1) with 1 by lra. rewrite RN32_fmt by auto. rewrite Rabs_R1. split; [lra|]. unfold max32. change 1 with (bpow radix2 0). apply bpow_lt. lia.
Qed.
Lemma scaled_one y : fmt32 y -> scaled 1 y = y.
Proof.
  intros F. unfold scaled. replace (1 / 1) with 1 by lra. rewrite (RN32_fmt 1) by (apply (fmt32_int 1); lia). rewrite Rmult_1_r. apply RN32_fmt; auto.
Qed.

Theorem C10_position_dependence_refuted A thr outm r : x86_vector A -> length outm = 65%nat ->
  returns sixty_five outm (quantize_call A 1 0 DT_F32 DT_UINT8 f_one 0 RM_NEAREST thr sixty_five outm) r ->
  exists o, r = Ok o /\ elem_at DT_F32 sixty_five 0 = elem_at DT_F32 sixty_five 64 /\
    code_at DT_UINT8 o 0 = 1%Z /\ code_at DT_UINT8 o 64 = 0%Z.
Proof.
  intros HA HL HR. destruct half_below_ok as [F E]. destruct f_one_ok as [F1 E1]. pose proof pred_half_pos as PH. destruct vround_pred_half as [_ RH].
  assert (Hn : numel DT_F32 (length sixty_five) = 65%nat) by reflexivity.
  assert (Hy : forall i, (i < 65)%nat -> scaled (val f_one) (val (elem_at DT_F32 sixty_five i)) = pred_half).
  { intros i Hi. rewrite sixty_five_elem by auto. rewrite E1, E. apply scaled_one. apply fmt32_pred_half. }
  destruct (C10_exact_codes A 1 0 DT_F32 DT_UINT8 f_one 0 thr sixty_five outm r) as (o & Eo & Lo & HC); auto using good_one'; try lia.
  - split; [left; auto|]. split; [right; right; auto|]. split; [|split].
    + apply Forall_forall. intros x Hx. assert (H : forallb (fun x => (0 <=? x)%Z && (x <? 256)%Z) sixty_five = true) by (vm_compute; reflexivity).
      rewrite forallb_forall in H. specialize (H x Hx). unfold is_byte. lia.
    + rewrite Hn, HL. reflexivity.
    + rewrite Hn. unfold sizes_ok. change (length sixty_five) with 260%nat. lia.
  - intros i Hi. rewrite Hn in Hi. split; [rewrite sixty_five_elem by auto; exact F|]. rewrite Hy by auto.
    rewrite Rabs_pos_eq by lra. apply Rlt_trans with 1; [lra|]. change 1 with (bpow radix2 0). apply bpow_lt. lia.
  - exists o. split; auto. split; [rewrite !sixty_five_elem by lia; reflexivity|]. rewrite Hn in HC.
    assert (V0 : vector_path A DT_F32 DT_UINT8 0 65 1 0 = true) by (destruct HA as [->|[->|[->| ->]]]; vm_compute; reflexivity).
    assert (V64 : vector_path A DT_F32 DT_UINT8 0 65 1 64 = false) by (destruct HA as [->|[->|[->| ->]]]; vm_compute; reflexivity).
    split.
    + destruct (HC 0%nat ltac:(lia)) as (H & _). destruct H as [H _]; auto; try (apply Hy; lia).
    + destruct (HC 64%nat ltac:(lia)) as (_ & _ & H). rewrite H; [rewrite Hy by lia; rewrite RH; reflexivity|]. rewrite V64. intros (_ & X & _). discriminate.
Qed.

Theorem C10_thread_count_dependence_refuted A thr outm r : x86_vector A -> length outm = 65%nat ->
  returns sixty_five outm (quantize_call A 65 0 DT_F32 DT_UINT8 f_one 0 RM_NEAREST thr sixty_five outm) r ->
  exists o, r = Ok o /\ code_at DT_UINT8 o 0 = 0%Z.
Proof.
  intros HA HL HR. destruct half_below_ok as [F E]. destruct f_one_ok as [F1 E1]. pose proof pred_half_pos as PH. destruct vround_pred_half as [_ RH].
  assert (Hn : numel DT_F32 (length sixty_five) = 65%nat) by reflexivity.
  assert (Hy : forall i, (i < 65)%nat -> scaled (val f_one) (val (elem_at DT_F32 sixty_five i)) = pred_half).
  { intros i Hi. rewrite sixty_five_elem by auto. rewrite E1, E. apply scaled_one. apply fmt32_pred_half. }
  destruct (C10_exact_codes A 65 0 DT_F32 DT_UINT8 f_one 0 thr sixty_five outm r) as (o & Eo & Lo & HC); auto using good_one'; try lia.
  - split; [left; auto|]. split; [right; right; auto|]. split; [|split].
    + apply Forall_forall. intros x Hx. assert (H : forallb (fun x => (0 <=? x)%Z && (x <? 256)%Z) sixty_five = true) by (vm_compute; reflexivity).
      rewrite forallb_forall in H. specialize (H x Hx). unfold is_byte. lia.
    + rewrite Hn, HL. reflexivity.
    + rewrite Hn. unfold sizes_ok. change (length sixty_five) with 260%nat. lia.
  - intros i Hi. rewrite Hn in Hi. split; [rewrite sixty_five_elem by auto; exact F|]. rewrite Hy by auto.
    rewrite Rabs_pos_eq by lra. apply Rlt_trans with 1; [lra|]. change 1 with (bpow radix2 0). apply bpow_lt. lia.
  - exists o. split; auto. rewrite Hn in HC.
    assert (V0 : vector_path A DT_F32 DT_UINT8 0 65 65 0 = false) by (destruct HA as [->|[->|[->| ->]]]; vm_compute; reflexivity).
    destruct (HC 0%nat ltac:(lia)) as (_ & _ & H). rewrite H; [rewrite Hy by lia; rewrite RH; reflexivity|]. rewrite V0. intros (_ & X & _). discriminate.
Qed.

(** ** C36: NaN, infinities and huge values on vector paths *)
Theorem C36_x86_vector A nt oaddr din dout scale zp thr inm outm r :
  x86_vector A -> buffers_ok nt din dout inm outm -> good_scale scale -> (Z.abs zp <= 2 ^ 22)%Z ->
  let n := numel din (length inm) in
  (forall i, (i < n)%nat -> vector_path A din dout oaddr n nt i = false -> quantizable scale (elem_at din inm i)) ->
  returns inm outm (quantize_call A nt oaddr din dout scale zp RM_NEAREST thr inm outm) r ->
  exists o, r = Ok o /\
    forall i, (i < n)%nat -> vector_path A din dout oaddr n nt i = true ->
      let x := elem_at din inm i in let y := scaled (val scale) (val x) in
      (extreme scale x -> code_at dout o i = if (zp <? 0)%Z then code_max dout else 0%Z) /\
      (finite x -> bpow radix2 30 <= Rabs y < bpow radix2 31 ->
         y = IZR (round_half_away y) /\ code_at dout o i = clamp 0 (code_max dout) (wrap32 (round_half_away y + zp))) /\
      (quantizable scale x -> Rabs y <> pred_half -> code_at dout o i = quant_code dout (val scale) zp (val x)).
Proof.
  intros HA HB Hsc Hz n HI HR. pose proof pred_half_pos as PH.
  destruct (quantize_every_input A nt oaddr din dout scale zp thr inm outm r HB Hsc Hz HI HR) as (o & Eo & _ & HC).
  exists o. split; auto. intros i Hi HV x y. specialize (HC i Hi). fold n in HC. rewrite HV in HC. fold x in HC.
  assert (E : vector_code A dout scale zp x = x86_vector_code dout scale zp x) by (destruct HA as [->|[->|[->| ->]]]; reflexivity).
  rewrite E in HC. clear E. unfold x86_vector_code in HC. fold y in HC.
  split; [|split].
  - intros [N|N].
    + unfold finite in N. destruct (is_finite 24 128 x); [congruence|exact HC].
    + fold y in N. rewrite (Rlt_bool_false (Rabs y)) in HC by auto. rewrite andb_false_r in HC. exact HC.
  - intros Fx [H1 H2]. assert (S' : bpow radix2 24 <= Rabs y) by (apply Rle_trans with (bpow radix2 30); auto; apply bpow_le; lia).
    assert (Fm : fmt32 y) by (apply RN32_in_fmt). destruct (vround_R_huge y Fm S') as (_ & E1 & E2). rewrite E1. split; [exact E2|].
    unfold finite in Fx. rewrite Fx, Rlt_bool_true in HC by auto. cbn [andb] in HC.
    rewrite Req_bool_false in HC; [rewrite E1 in HC; exact HC|].
    intros X. rewrite X in H1. assert (1 <= bpow radix2 30) by (change 1 with (bpow radix2 0); apply bpow_le; lia). lra.
  - intros [Fx Hy] Hne. fold y in Hy. unfold finite in Fx. rewrite Fx, Rlt_bool_true in HC.
    2:{ eapply Rlt_trans; [exact Hy|]. apply bpow_lt. lia. }
    cbn [andb] in HC. rewrite Req_bool_false in HC by auto. pose proof (rha_bound y Hy). rewrite wrap32_id in HC by lia. exact HC.
Qed.

(** NEON (f32 to uint8 is the only vectorised quantize kernel): NaN gives the clamped zero point; values beyond the int32 range saturate before the
    zero point is added with wrap-around. *)
Theorem C36_neon_vector nt oaddr scale zp thr inm outm r :
  buffers_ok nt DT_F32 DT_UINT8 inm outm -> good_scale scale -> (Z.abs zp <= 2 ^ 22)%Z ->
  let n := numel DT_F32 (length inm) in
  (forall i, (i < n)%nat -> vector_path NEON DT_F32 DT_UINT8 oaddr n nt i = false -> quantizable scale (elem_at DT_F32 inm i)) ->
  returns inm outm (quantize_call NEON nt oaddr DT_F32 DT_UINT8 scale zp RM_NEAREST thr inm outm) r ->
  exists o, r = Ok o /\
    forall i, (i < n)%nat -> vector_path NEON DT_F32 DT_UINT8 oaddr n nt i = true ->
      let x := elem_at DT_F32 inm i in let y := scaled (val scale) (val x) in
      (nan x -> code_at DT_UINT8 o i = clamp 0 255 zp) /\
      (extreme scale x -> ~ nan x ->
         code_at DT_UINT8 o i = if xorb (Bsign 24 128 x) (Bsign 24 128 scale)
                                then (if (zp <? 0)%Z then 255%Z else 0%Z)      (* towards minus infinity *)
                                else (if (0 <? zp)%Z then 0%Z else 255%Z)) /\  (* towards plus infinity *)
      (quantizable scale x -> code_at DT_UINT8 o i = quant_code DT_UINT8 (val scale) zp (val x)).
Proof.
  intros HB Hsc Hz n HI HR.
  destruct (quantize_every_input NEON nt oaddr DT_F32 DT_UINT8 scale zp thr inm outm r HB Hsc Hz HI HR) as (o & Eo & _ & HC).
  exists o. split; auto. intros i Hi HV x y. specialize (HC i Hi). fold n in HC. rewrite HV in HC. fold x in HC.
  cbn [vector_code] in HC. unfold neon_vector_code in HC. fold y in HC.
  split; [|split].
  - unfold nan. intros N. rewrite N in HC. exact HC.
  - intros HX N. assert (N' : is_nan 24 128 x = false) by (unfold nan in N; destruct (is_nan 24 128 x); congruence). rewrite N' in HC.
    assert (HF : is_finite 24 128 x && Rlt_bool (Rabs y) (bpow radix2 31) = false).
    { destruct HX as [X|X]; [unfold finite in X; destruct (is_finite 24 128 x); [congruence|reflexivity]|]. fold y in X. rewrite Rlt_bool_false by auto. apply andb_false_r. }
    rewrite HF in HC. exact HC.
  - intros [Fx Hy]. fold y in Hy. assert (N' : is_nan 24 128 x = false) by (unfold finite in Fx; destruct x; cbn in Fx |- *; auto; discriminate).
    unfold finite in Fx. rewrite N', Fx, Rlt_bool_true in HC.
    2:{ eapply Rlt_trans; [exact Hy|]. apply bpow_lt. lia. }
    cbn [andb] in HC. pose proof (rha_bound y Hy). rewrite wrap32_id in HC by lia. exact HC.
Qed.
