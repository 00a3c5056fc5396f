(** PropsExtreme.v -- C36 (what every input does, including the undefined conversions), C11 (monotonicity). *)
From Coq Require Import ZArith List Lia Bool Arith ZifyBool ZifyNat Reals Lra.
From Flocq Require Import Core Binary Bits.
From Verif Require Import Base Floats Simd Dtypes Spec ApiSpec QuantKernels DequantKernels ExecFacts FloatFacts QuantFacts QuantKernelFacts
  QuantGenericFacts DequantFacts DequantGenericFacts QuantLanes Context ContextFacts Footprint QuantizeFacts DequantizeFacts Api
  FloatFacts2 FloatFacts3 PropsQuantize PathSpec NoAbort ScalarUB PropsPaths.
Import ListNotations.
Local Open Scope R_scope.

(** Is the scalar conversion of [x] defined?  The rounded value, and its sum with the zero point, must fit the integer type that the scalar
    code uses: int64 for f32 to uint2, int32 for the other five combinations. *)
Definition conv_limit (din dout : dtype) : Z := match din, dout with DT_F32, DT_UINT2 => 2 ^ 63 | _, _ => 2 ^ 31 end.
Definition conversion_defined (din dout : dtype) (scale : f32) (zp : Z) (x : f32) : Prop :=
  let L := conv_limit din dout in
  let q := round_half_away (scaled (val scale) (val x)) in
  finite x /\ (- L <= q < L)%Z /\ (- L <= q + zp < L)%Z.

Lemma conversion_dec din dout scale zp x : {conversion_defined din dout scale zp x} + {~ conversion_defined din dout scale zp x}.
Proof.
  unfold conversion_defined. cbv zeta. set (L := conv_limit din dout). set (q := round_half_away _). clearbody L q.
  destruct (finite_dec x); [|right; tauto].
  destruct (Z_le_dec (- L) q); [|right; lia]. destruct (Z_lt_dec q L); [|right; lia].
  destruct (Z_le_dec (- L) (q + zp)); [|right; lia]. destruct (Z_lt_dec (q + zp) L); [|right; lia]. left. repeat split; auto.
Qed.

Lemma round_scalar scale x : good_scale scale ->
  f_to_Z (fround (fmul x (fdiv f_one scale))) =
  if finite_dec x then if Rlt_bool (Rabs (scaled (val scale) (val x))) max32 then Some (round_half_away (scaled (val scale) (val x))) else None
  else None.
Proof.
  intros Hs. destruct (inv_ok scale Hs) as [Fi Ei]. pose proof (inv_nonzero scale Hs) as Ni. destruct (finite_dec x) as [F|F].
  - destruct (fmul_cases x (fdiv f_one scale) F Fi) as [(F' & E & B)|[E B]].
    + rewrite fround_Z by auto. rewrite E. rewrite Ei in *. unfold scaled. rewrite Rlt_bool_true by auto. reflexivity.
    + rewrite Ei in *. unfold scaled. rewrite Rlt_bool_false by auto. apply f_to_Z_nonfinite, fround_nonfinite. rewrite E. unfold finite. cbn. discriminate.
  - apply f_to_Z_nonfinite, fround_nonfinite, fmul_nonfinite; auto.
Qed.

Lemma rha_huge y : max32 <= Rabs y -> (2 ^ 64 <= Z.abs (round_half_away y))%Z.
Proof.
  intros H. assert (B : bpow radix2 65 <= max32) by (apply bpow_le; lia). change (bpow radix2 65) with (IZR 36893488147419103232) in B.
  pose proof (rha_error y) as E. apply Rabs_le_inv in E. apply le_IZR. rewrite abs_IZR. change (IZR (2 ^ 64)) with 18446744073709551616.
  unfold Rabs in *. destruct (Rcase_abs y), (Rcase_abs (IZR (round_half_away y))); lra.
Qed.

Lemma q_scalar_total din dout thr scale zp x : float_type din -> quant_type dout -> good_scale scale -> (Z.abs zp <= 2 ^ 22)%Z ->
  q_scalar din dout RM_NEAREST thr (fdiv f_one scale) zp x =
  if conversion_dec din dout scale zp x then Ok (quant_code dout (val scale) zp (val x)) else UB.
Proof.
  intros Hfp Hq Hs Hz. pose proof (code_max_range dout Hq) as Hm. pose proof (round_scalar scale x Hs) as R.
  set (y := scaled (val scale) (val x)) in *.
  assert (HL : forall L, (0 < L <= 2 ^ 63)%Z -> max32 <= Rabs y -> ~ (- L <= round_half_away y < L)%Z).
  { intros L HL H. apply rha_huge in H. lia. }
  unfold q_scalar, quant_code. fold y.
  assert (S : specialised din dout RM_NEAREST = negb (conv_limit din dout =? 2 ^ 63)%Z).
  { destruct Hfp as [->| ->], Hq as [->|[->| ->]]; reflexivity. }
  destruct (conversion_dec din dout scale zp x) as [(F & B1 & B2)|N].
  - fold y in B1, B2.
    assert (Hb : Rlt_bool (Rabs y) max32 = true).
    { apply Rlt_bool_true. destruct (Rlt_or_le (Rabs y) max32); auto. exfalso.
      refine (HL (conv_limit din dout) _ H B1). clear. destruct din, dout; cbn; lia. }
    destruct (finite_dec x); [|contradiction]. rewrite Hb in R.
    destruct (specialised din dout RM_NEAREST).
    + assert (HLm : conv_limit din dout = (2 ^ 31)%Z) by (destruct din, dout; cbn in S |- *; auto; discriminate). rewrite HLm in *.
      rewrite wrap32_id by lia. unfold q_nearest_i32, f32_to_i32. rewrite R. unfold i32, in_i32.
      rewrite (proj2 (Z.leb_le _ _)), (proj2 (Z.leb_le _ _)) by lia. cbn [andb bind].
      rewrite (proj2 (Z.leb_le _ _)), (proj2 (Z.leb_le _ _)) by lia. cbn [andb bind]. rewrite clampZ_clamp by lia. reflexivity.
    + assert (HLm : conv_limit din dout = (2 ^ 63)%Z) by (destruct din, dout; cbn in S |- *; auto; discriminate). rewrite HLm in *.
      unfold quant_step_scalar, q_nearest_i64, f32_to_i64. rewrite R. unfold i64, in_i64.
      rewrite (proj2 (Z.leb_le _ _)), (proj2 (Z.leb_le _ _)) by lia. cbn [andb bind].
      rewrite (proj2 (Z.leb_le _ _)), (proj2 (Z.leb_le _ _)) by lia. cbn [andb bind]. rewrite clampZ_clamp by lia. reflexivity.
  - assert (N' : finite x -> Rabs y < max32 -> ~ ((- conv_limit din dout <= round_half_away y < conv_limit din dout)%Z /\
        (- conv_limit din dout <= round_half_away y + zp < conv_limit din dout)%Z)).
    { intros F _ H. apply N. split; auto. }
    destruct (specialised din dout RM_NEAREST).
    + assert (HLm : conv_limit din dout = (2 ^ 31)%Z) by (destruct din, dout; cbn in S |- *; auto; discriminate). rewrite HLm in *.
      rewrite wrap32_id by lia. unfold q_nearest_i32, f32_to_i32. rewrite R. destruct (finite_dec x) as [F|F]; [|reflexivity].
      destruct (Rlt_bool_spec (Rabs y) max32) as [B|B]; [|reflexivity]. specialize (N' F B). unfold i32, in_i32.
      destruct (_ && _) eqn:E1; cbn [bind]; [|reflexivity]. destruct (_ && _) eqn:E2 at 1; cbn [bind]; [|reflexivity]. lia.
    + assert (HLm : conv_limit din dout = (2 ^ 63)%Z) by (destruct din, dout; cbn in S |- *; auto; discriminate). rewrite HLm in *.
      unfold quant_step_scalar, q_nearest_i64, f32_to_i64. rewrite R. destruct (finite_dec x) as [F|F]; [|reflexivity].
      destruct (Rlt_bool_spec (Rabs y) max32) as [B|B]; [|reflexivity]. specialize (N' F B). unfold i64, in_i64.
      destruct (_ && _) eqn:E1; cbn [bind]; [|reflexivity]. destruct (_ && _) eqn:E2 at 1; cbn [bind]; [|reflexivity]. lia.
Qed.

(** C36, complete: for nearest rounding and every input buffer (NaN, infinities, any magnitude), every schedule.  If some element on a scalar path
    has no defined conversion the call is undefined; otherwise it succeeds and every code is the one given by the path's formula. *)
Theorem C36_every_input A nt oaddr din dout scale zp thr inm outm r :
  buffers_ok nt din dout inm outm -> good_scale scale -> (Z.abs zp <= 2 ^ 22)%Z ->
  let n := numel din (length inm) in
  returns inm outm (quantize_call A nt oaddr din dout scale zp RM_NEAREST thr inm outm) r ->
  ((exists i, (i < n)%nat /\ vector_path A din dout oaddr n nt i = false /\ ~ conversion_defined din dout scale zp (elem_at din inm i)) -> r = UB) /\
  ((forall i, (i < n)%nat -> vector_path A din dout oaddr n nt i = false -> conversion_defined din dout scale zp (elem_at din inm i)) ->
   exists o, r = Ok o /\ length o = length outm /\
     forall i, (i < n)%nat ->
       code_at dout o i = if vector_path A din dout oaddr n nt i then vector_code A dout scale zp (elem_at din inm i)
                          else quant_code dout (val scale) zp (val (elem_at din inm i))).
Proof.
  intros (Hfp & Hq & Hb & Hl & HS) Hsc Hz n HR. unfold quantize_call in HR.
  assert (Hnt : (nt > 0)%nat) by (destruct HS; lia).
  assert (Hpe : (per_byte dout > 0)%nat) by (clear -Hq; destruct Hq as [->|[->| ->]]; cbn; lia).
  assert (L : forall t, (t < nt)%nat -> (part_bound (per_byte dout) n nt (S t) <= n)%nat) by (intros t Ht; apply part_le; auto).
  split.
  - intros (i & Hi & HV & HN). destruct (owner_exists (per_byte dout) n nt i Hpe Hnt Hi) as (t & Ht & Hti).
    eapply quantize_ub with (t := t) (i := i); eauto.
    + pose proof (vector_path_owner A din dout oaddr n nt t i Hq Hnt Ht Hti) as EV. rewrite HV in EV. symmetry. exact EV.
    + cbn [thr_of]. rewrite q_scalar_total by auto. destruct (conversion_dec _ _ _ _ _); [contradiction|reflexivity].
  - intros HI. set (C := fun i => if vector_path A din dout oaddr n nt i then vector_code A dout scale zp (elem_at din inm i)
                     else quant_code dout (val scale) zp (val (elem_at din inm i))).
    assert (HN : forall i, vector_path A din dout oaddr n nt i = true -> has_vec A din dout RM_NEAREST = true).
    { intros i E. unfold vector_path in E. apply existsb_exists in E. destruct E as (t & _ & E). cbv zeta in E. apply andb_prop in E. destruct E as [_ E].
      eapply q_vec_has; eauto. }
    apply quantize_core_pos with (C := C) in HR; auto.
    + eexists. split; [exact HR|]. rewrite skipn_all, app_nil_r. split; [rewrite map_length, seq_length; auto|].
      intros i Hi. rewrite Hl. rewrite <- (app_nil_r (map _ _)). rewrite code_at_byte_of; auto.
      * fold n. rewrite cut_lt by auto. reflexivity.
      * intros j Hj. unfold C. destruct (vector_path A din dout oaddr n nt j) eqn:E; [|apply quant_code_range; auto].
        apply vector_code_range; auto. intros ->. apply HN in E. eapply has_vec_neon; eauto.
      * rewrite bytes_for_per_byte by auto. fold n. clear -Hi Hq. destruct Hq as [->|[->| ->]]; cbn [per_byte]; lia.
    + intros t i Ht Hi E. fold n in Hi, E. specialize (L t Ht). cbn [thr_of].
      rewrite <- (vector_path_owner A din dout oaddr n nt t i Hq Hnt Ht Hi) in E. unfold C. rewrite E.
      rewrite q_scalar_total by auto. destruct (conversion_dec _ _ _ _ _) as [D|D]; [reflexivity|]. exfalso. apply D. apply HI; auto. lia.
    + eexists. cbn [thr_of]. apply q_scalar_nearest_ok; auto. apply quantizable_zero.
    + intros t i Ht Hi E. fold n in Hi, E. specialize (L t Ht).
      pose proof (vector_path_owner A din dout oaddr n nt t i Hq Hnt Ht Hi) as EV. rewrite E in EV. unfold C. rewrite EV.
      apply lane_all; auto. intros ->. apply HN in EV. eapply has_vec_neon; eauto.
Qed.

(** ** C11 *)
Lemma scaled_mono s x x' : 0 < s -> x <= x' -> scaled s x <= scaled s x'.
Proof.
  intros Hs H. unfold scaled. apply RN32_le. apply Rmult_le_compat_r; auto.
  rewrite <- RN32_0. apply RN32_le. apply Rlt_le, Rdiv_lt_0_compat; lra.
Qed.
Lemma vround_R_mono y y' : y <= y' -> (vround_R y <= vround_R y')%Z.
Proof.
  intros H. unfold vround_R.
  assert (Half : fmt32 (/ 2)) by (apply (fmt32_bpow (-1)); lia).
  assert (P : forall z, 0 <= z -> (0 <= Ztrunc (RN32 (z + / 2)))%Z).
  { intros z Hz. apply le_IZR. rewrite <- (Ztrunc_IZR 0). apply IZR_le, Ztrunc_le. rewrite <- RN32_0. apply RN32_le. lra. }
  assert (N : forall z, z < 0 -> (Ztrunc (RN32 (z + - / 2)) <= 0)%Z).
  { intros z Hz. rewrite <- (Ztrunc_IZR 0). apply Ztrunc_le. rewrite <- RN32_0. apply RN32_le. lra. }
  destruct (Rle_bool_spec 0 y), (Rle_bool_spec 0 y').
  - apply Ztrunc_le, RN32_le. lra.
  - lra.
  - specialize (N _ H0). specialize (P _ H1). lia.
  - apply Ztrunc_le, RN32_le. lra.
Qed.

(** finite, and the scaled value leaves room for adding the zero point in int32 *)
Definition moderate (scale x : f32) : Prop :=
  finite x /\ Rabs (scaled (val scale) (val x)) < bpow radix2 31 - bpow radix2 22.

Lemma rha_moderate y : fmt32 y -> Rabs y < bpow radix2 31 - bpow radix2 22 -> (Z.abs (round_half_away y) < 2 ^ 31 - 2 ^ 22)%Z.
Proof.
  intros F H. destruct (Rlt_or_le (Rabs y) (bpow radix2 30)) as [S|S]; [apply rha_bound in S; lia|].
  assert (S' : bpow radix2 24 <= Rabs y) by (apply Rle_trans with (bpow radix2 30); auto; apply bpow_le; lia).
  destruct (vround_R_huge y F S') as (_ & -> & E). apply lt_IZR. rewrite abs_IZR, <- E.
  change (IZR (2 ^ 31 - 2 ^ 22)) with 2143289344. change (bpow radix2 31) with 2147483648 in H. change (bpow radix2 22) with 4194304 in H. lra.
Qed.
Lemma x86_code_vround d scale zp x : quant_type d -> (Z.abs zp <= 2 ^ 22)%Z -> moderate scale x ->
  x86_vector_code d scale zp x = clamp 0 (code_max d) (vround_R (scaled (val scale) (val x)) + zp).
Proof.
  intros Hd Hz [F H]. pose proof (code_max_range d Hd) as Hm. unfold x86_vector_code. set (y := scaled (val scale) (val x)) in *.
  assert (Fm : fmt32 y) by apply RN32_in_fmt. unfold finite in F. rewrite F.
  assert (B : Rabs y < bpow radix2 31) by (pose proof (bpow_gt_0 radix2 22); lra). rewrite Rlt_bool_true by auto. cbn [andb].
  pose proof pred_half_pos as PH. destruct vround_pred_half as [V1 V2]. pose proof (rha_moderate y Fm H) as RB.
  destruct (Req_bool_spec (Rabs y) pred_half) as [E|E].
  - destruct (Rlt_bool_spec y 0) as [N|N].
    + rewrite Rabs_left in E by auto. assert (Ey : y = - pred_half) by lra. rewrite Ey, vround_R_opp, V1 by lra. reflexivity.
    + rewrite Rabs_pos_eq in E by auto. rewrite E, V1. reflexivity.
  - destruct (Rlt_or_le (Rabs y) (bpow radix2 30)) as [S|S].
    + destruct (vround_clamp y zp (code_max d) Fm S E Hz Hm) as [B2 E2]. pose proof (rha_bound y S). rewrite wrap32_id by lia. auto.
    + assert (S' : bpow radix2 24 <= Rabs y) by (apply Rle_trans with (bpow radix2 30); auto; apply bpow_le; lia).
      destruct (vround_R_huge y Fm S') as (E1 & E2 & _). rewrite E1, <- E2. rewrite wrap32_id by lia. reflexivity.
Qed.
Lemma neon_code_moderate scale zp x : (Z.abs zp <= 2 ^ 22)%Z -> moderate scale x ->
  neon_vector_code scale zp x = quant_code DT_UINT8 (val scale) zp (val x).
Proof.
  intros Hz [F H]. unfold neon_vector_code, quant_code. set (y := scaled (val scale) (val x)) in *.
  assert (Fm : fmt32 y) by apply RN32_in_fmt.
  assert (NN : is_nan 24 128 x = false) by (unfold finite in F; destruct x; cbn in F |- *; auto; discriminate). rewrite NN.
  unfold finite in F. rewrite F. rewrite Rlt_bool_true by (pose proof (bpow_gt_0 radix2 22); lra). cbn [andb].
  pose proof (rha_moderate y Fm H) as RB. rewrite wrap32_id by lia. reflexivity.
Qed.
Lemma x86_code_quant d scale zp x : quant_type d -> (Z.abs zp <= 2 ^ 22)%Z -> moderate scale x -> Rabs (scaled (val scale) (val x)) <> pred_half ->
  x86_vector_code d scale zp x = quant_code d (val scale) zp (val x).
Proof.
  intros Hd Hz [F H] N. unfold x86_vector_code, quant_code. set (y := scaled (val scale) (val x)) in *.
  assert (Fm : fmt32 y) by apply RN32_in_fmt. unfold finite in F. rewrite F.
  rewrite Rlt_bool_true by (pose proof (bpow_gt_0 radix2 22); lra). cbn [andb]. rewrite Req_bool_false by auto.
  pose proof (rha_moderate y Fm H) as RB. rewrite wrap32_id by lia. reflexivity.
Qed.

(** C11: with a positive scale, larger inputs never get smaller codes -- for elements handled by the same kind of code path, and for any
    two elements away from the two values of C10. *)
Theorem C11_monotone A nt oaddr din dout scale zp thr inm outm r :
  buffers_ok nt din dout inm outm -> good_scale scale -> 0 < val scale -> (Z.abs zp <= 2 ^ 22)%Z ->
  let n := numel din (length inm) in
  let x := elem_at din inm in
  let y i := scaled (val scale) (val (x i)) in
  (forall i, (i < n)%nat -> vector_path A din dout oaddr n nt i = false -> conversion_defined din dout scale zp (x i)) ->
  returns inm outm (quantize_call A nt oaddr din dout scale zp RM_NEAREST thr inm outm) r ->
  exists o, r = Ok o /\
    forall i j, (i < n)%nat -> (j < n)%nat -> moderate scale (x i) -> moderate scale (x j) ->
      vector_path A din dout oaddr n nt i = vector_path A din dout oaddr n nt j \/ (Rabs (y i) <> pred_half /\ Rabs (y j) <> pred_half) ->
      val (x i) <= val (x j) -> (code_at dout o i <= code_at dout o j)%Z.
Proof.
  intros HB Hs Hpos Hz n x y HI HR. pose proof HB as (_ & Hq & _).
  destruct (proj2 (C36_every_input A nt oaddr din dout scale zp thr inm outm r HB Hs Hz HR) HI) as (o & Eo & _ & HC).
  exists o. split; auto. intros i j Hi Hj Mi Mj HP Hle. fold n in HC. rewrite (HC i Hi), (HC j Hj).
  fold (x i) (x j).
  assert (Hy : y i <= y j) by (apply scaled_mono; auto).
  assert (Q : (quant_code dout (val scale) zp (val (x i)) <= quant_code dout (val scale) zp (val (x j)))%Z).
  { unfold quant_code. fold (y i) (y j). apply rha_le in Hy. unfold clamp. lia. }
  assert (HN : forall i, vector_path A din dout oaddr n nt i = true -> has_vec A din dout RM_NEAREST = true).
  { intros k E. unfold vector_path in E. apply existsb_exists in E. destruct E as (t & _ & E). cbv zeta in E. apply andb_prop in E. destruct E as [_ E].
    eapply q_vec_has; eauto. }
  assert (V : vector_path A din dout oaddr n nt i = true \/ vector_path A din dout oaddr n nt j = true ->
     (A = NEON /\ dout = DT_UINT8 /\ forall k, moderate scale (x k) -> vector_code A dout scale zp (x k) = quant_code dout (val scale) zp (val (x k))) \/
     (forall z, vector_code A dout scale zp z = x86_vector_code dout scale zp z)).
  { intros HV. destruct (has_vec A din dout RM_NEAREST) eqn:E; [|exfalso; destruct HV as [K|K]; apply HN in K; congruence].
    destruct A; try (right; intros; reflexivity). left. assert (dout = DT_UINT8) by (eapply has_vec_neon; eauto). subst dout.
    split; auto. split; auto. intros k Mk. apply neon_code_moderate; auto. }
  destruct (vector_path A din dout oaddr n nt i) eqn:Pi, (vector_path A din dout oaddr n nt j) eqn:Pj; auto.
  - destruct V as [(_ & _ & V)|V]; auto; [rewrite !V by auto; auto|].
    rewrite !V, !x86_code_vround by auto. fold (y i) (y j). apply vround_R_mono in Hy. unfold clamp. lia.
  - destruct HP as [HP|[P1 P2]]; [discriminate|]. destruct V as [(_ & _ & V)|V]; auto; [rewrite !V by auto; auto|].
    rewrite !V, !x86_code_quant by auto. auto.
  - destruct HP as [HP|[P1 P2]]; [discriminate|]. destruct V as [(_ & _ & V)|V]; auto; [rewrite !V by auto; auto|].
    rewrite !V, !x86_code_quant by auto. auto.
Qed.

(** Beyond the int32 range the claim is false on x86 vector paths: a huge positive value or +infinity gets code 0, below any positive code. *)
Theorem C11_huge_values_refuted A nt oaddr din dout scale zp thr inm outm r :
  x86_vector A -> buffers_ok nt din dout inm outm -> good_scale scale -> (0 <= zp <= 2 ^ 22)%Z ->
  let n := numel din (length inm) in
  let x := elem_at din inm in
  (forall i, (i < n)%nat -> vector_path A din dout oaddr n nt i = false -> quantizable scale (x i)) ->
  returns inm outm (quantize_call A nt oaddr din dout scale zp RM_NEAREST thr inm outm) r ->
  exists o, r = Ok o /\
    forall j, (j < n)%nat -> vector_path A din dout oaddr n nt j = true ->
      bpow radix2 31 <= scaled (val scale) (val (x j)) -> code_at dout o j = 0%Z.
Proof.
  intros HA HB Hs Hz n x HI HR.
  destruct (C36_x86_vector A nt oaddr din dout scale zp thr inm outm r HA HB Hs) as (o & Eo & HC); auto; [lia|].
  exists o. split; auto. intros j Hj HV Hy. destruct (HC j Hj HV) as (H & _). rewrite H.
  - rewrite (proj2 (Z.ltb_ge zp 0)) by lia. reflexivity.
  - right. fold (x j). rewrite Rabs_pos_eq; auto. pose proof (bpow_gt_0 radix2 31). lra.
Qed.
