(** QuantLanes.v -- the scalar steps and the vector lanes compute the codes of Spec.v. *)
From Coq Require Import ZArith List Lia Bool Reals Lra Psatz.
From Flocq Require Import Core Binary Bits.
From Verif Require Import Base Floats Simd Dtypes Spec FloatFacts QuantKernels QuantFacts QuantKernelFacts QuantGenericFacts.
Import ListNotations.
Local Open Scope R_scope.

Lemma bpow30 : bpow radix2 30 = 1073741824. Proof. simpl. lra. Qed.
Lemma lt30_max32 r : r < bpow radix2 30 -> r < max32.
Proof. intros H. eapply Rlt_trans; [exact H|]. unfold max32. apply bpow_lt. lia. Qed.

Lemma inv_ok scale : good_scale scale -> finite (fdiv f_one scale) /\ val (fdiv f_one scale) = RN32 (1 / val scale).
Proof.
  intros [H1 H2]. destruct f_one_ok as [F E]. 
  destruct (fdiv_ok f_one scale F H1) as [A B]; rewrite ?E in *; auto.
Qed.

Lemma prod_ok scale x : good_scale scale -> quantizable scale x ->
  finite (fmul x (fdiv f_one scale)) /\ val (fmul x (fdiv f_one scale)) = scaled (val scale) (val x).
Proof.
  intros Hs [Fx Hx]. destruct (inv_ok scale Hs) as [Fi Ei]. unfold scaled in *.
  destruct (fmul_ok x (fdiv f_one scale) Fx Fi) as [A B]; rewrite Ei in *; auto. apply lt30_max32; auto.
Qed.

Lemma rha_bound y : Rabs y < bpow radix2 30 -> (Z.abs (round_half_away y) <= 2 ^ 30)%Z.
Proof.
  intros H. apply Rabs_def2 in H. rewrite bpow30 in H. apply Z.abs_le. split.
  - rewrite <- (rha_IZR (- 2 ^ 30)). apply rha_le. change (IZR (- 2 ^ 30)) with (-1073741824). lra.
  - rewrite <- (rha_IZR (2 ^ 30)). apply rha_le. change (IZR (2 ^ 30)) with (1073741824). lra.
Qed.

Lemma fround_Z x : finite x -> f_to_Z (fround x) = Some (round_half_away (val x)).
Proof.
  intros F. destruct (fround_ok x F) as [F' E]. rewrite f_to_Z_finite by auto. rewrite E, Ztrunc_IZR. reflexivity.
Qed.

Lemma in_i32_ok z : (Z.abs z < 2 ^ 31)%Z -> in_i32 z = true.
Proof. intros H. unfold in_i32. lia. Qed.
Lemma in_i64_ok z : (Z.abs z < 2 ^ 63)%Z -> in_i64 z = true.
Proof. intros H. unfold in_i64. lia. Qed.
Lemma wrap32_id z : (Z.abs z < 2 ^ 31)%Z -> wrap32 z = z.
Proof. intros H. unfold wrap32. rewrite Z.mod_small by lia. lia. Qed.

Section Codes.
Variables (scale x : f32) (zp : Z).
Hypothesis Hs : good_scale scale.
Hypothesis Hx : quantizable scale x.
Let y := scaled (val scale) (val x).
Let inv := fdiv f_one scale.

Lemma y_fmt : generic_format radix2 (FLT_exp (-149) 24) y.
Proof. unfold y, scaled. apply RN32_in_fmt. Qed.

Lemma q_nearest_i32_ok mx : (0 <= mx)%Z -> (Z.abs zp <= 2 ^ 22)%Z ->
  q_nearest_i32 mx inv zp x = Ok (clamp 0 mx (round_half_away y + zp)).
Proof.
  intros Hm Hz. destruct (prod_ok scale x Hs Hx) as [F E]. pose proof (proj2 Hx) as Hb. apply rha_bound in Hb.
  unfold q_nearest_i32, f32_to_i32. fold inv in F, E. rewrite fround_Z by auto. rewrite E. fold y in Hb |- *.
  unfold i32. rewrite in_i32_ok by lia. cbn [bind]. rewrite in_i32_ok by lia. cbn [bind]. f_equal. apply clampZ_clamp; auto.
Qed.

Lemma q_nearest_i64_ok mx : (0 <= mx)%Z -> (Z.abs zp <= 2 ^ 62)%Z ->
  q_nearest_i64 mx inv zp x = Ok (clamp 0 mx (round_half_away y + zp)).
Proof.
  intros Hm Hz. destruct (prod_ok scale x Hs Hx) as [F E]. pose proof (proj2 Hx) as Hb. apply rha_bound in Hb.
  unfold q_nearest_i64, f32_to_i64. fold inv in F, E. rewrite fround_Z by auto. rewrite E. fold y in Hb |- *.
  unfold i64. rewrite in_i64_ok by lia. cbn [bind]. rewrite in_i64_ok by lia. cbn [bind]. f_equal. apply clampZ_clamp; auto.
Qed.

(** the sum y +- 0.5 of the vector lane *)
Lemma adj_ok : let p := fmul x inv in
  cvttps (fadd p (if fge p f_zero then f_half else f_nhalf)) = vround_R y.
Proof.
  intros p. destruct (prod_ok scale x Hs Hx) as [F E]. fold inv in F, E. fold p in F, E. fold y in E.
  pose proof (proj2 Hx) as Hb. fold y in Hb. rewrite bpow30 in Hb. apply Rabs_def2 in Hb.
  destruct f_zero_ok as [F0 E0]. rewrite fge_ok, E, E0 by auto.
  assert (Hr : forall c, -1 <= c <= 1 -> Rabs (RN32 (y + c)) <= IZR (2 ^ 30)).
  { intros c Hc. 
    apply Rabs_le. change (IZR (2 ^ 30)) with 1073741824 in *. 
    assert (HB : RN32 (1073741824 + 32) = 1073741824).
    { unfold RN32, round, F2R, scaled_mantissa, cexp.
      assert (Hm : mag radix2 (1073741824 + 32) = 31%Z :> Z).
      { apply mag_unique. rewrite Rabs_pos_eq by lra. simpl. lra. }
      rewrite Hm. change (FLT_exp (-149) 24 31) with 7%Z. cbn [Fnum Fexp]. change (- (7))%Z with (-7)%Z.
      replace ((1073741824 + 32) * bpow radix2 (- 7)) with (IZR 8388608 + / 4) by (simpl; lra).
      unfold Znearest. rewrite (Zfloor_imp 8388608) by (simpl; lra). rewrite Rcompare_Lt by lra. simpl. lra. }
    split.
    - rewrite <- HB, <- RN32_opp. apply RN32_le. lra.
    - rewrite <- HB. apply RN32_le. lra. }
  assert (C : forall h c, finite h -> val h = c -> -1 <= c <= 1 -> cvttps (fadd p h) = Ztrunc (RN32 (y + c))).
  { intros h c Fh Eh Hc. destruct (fadd_ok p h F Fh) as [Fa Ea]; rewrite E, Eh in *.
    { eapply Rle_lt_trans; [apply Hr; auto|]. unfold max32. rewrite <- (IZR_Zpower radix2 128) by lia. apply IZR_lt. reflexivity. }
    unfold cvttps. rewrite f_to_Z_finite by auto. rewrite Ea. 
    assert (Z.abs (Ztrunc (RN32 (y + c))) <= 2 ^ 30)%Z.
    { rewrite <- Ztrunc_abs. rewrite <- (Ztrunc_IZR (2 ^ 30)). apply Ztrunc_le. apply Hr; auto. }
    rewrite in_i32_ok by lia. reflexivity. }
  unfold vround_R. destruct (Rle_bool 0 y).
  - apply C; [apply f_half_ok|apply f_half_ok|lra].
  - apply C; [apply f_nhalf_ok|apply f_nhalf_ok|lra].
Qed.

Lemma lane_x86_ok mx : (0 <= mx <= 255)%Z -> (Z.abs zp <= 2 ^ 22)%Z -> Rabs y <> pred_half ->
  lane_x86 mx inv zp x = clamp 0 mx (round_half_away y + zp).
Proof.
  intros Hm Hz Hp. unfold lane_x86. rewrite adj_ok.
  destruct (vround_clamp y zp mx y_fmt (proj2 Hx) Hp Hz Hm) as [B E].
  rewrite <- E. rewrite wrap32_id by lia. unfold clamp. reflexivity.
Qed.

Lemma lane_neon_ok : (Z.abs zp <= 2 ^ 22)%Z -> lane_neon inv zp x = clamp 0 255 (round_half_away y + zp).
Proof.
  intros Hz. destruct (prod_ok scale x Hs Hx) as [F E]. pose proof (proj2 Hx) as Hb. apply rha_bound in Hb.
  fold inv in F, E. unfold lane_neon, vcvta. rewrite fround_Z by auto. rewrite E. fold y in Hb |- *.
  rewrite Z.min_r by lia. rewrite Z.max_r by lia. rewrite wrap32_id by lia. unfold sat_u8, sat_i16, clamp. lia.
Qed.
End Codes.

Lemma code_max_range d : is_q d -> (0 <= code_max d <= 255)%Z.
Proof. intros [->|[->| ->]]; cbn; lia. Qed.

(** Nearest rounding: the scalar step of every kernel *)
Lemma q_scalar_nearest_ok din dout thr scale zp x : is_q dout -> good_scale scale -> quantizable scale x -> (Z.abs zp <= 2 ^ 22)%Z ->
  q_scalar din dout RM_NEAREST thr (fdiv f_one scale) zp x = Ok (quant_code dout (val scale) zp (val x)).
Proof.
  intros Hd Hs Hx Hz. pose proof (code_max_range dout Hd). unfold q_scalar, quant_code. destruct (specialised din dout RM_NEAREST).
  - rewrite wrap32_id by lia. apply q_nearest_i32_ok; auto; lia.
  - cbn [quant_step_scalar]. apply q_nearest_i64_ok; auto; lia.
Qed.

Lemma lane_ok A dout scale zp x : is_q dout -> (A = NEON -> dout = DT_UINT8) -> good_scale scale -> quantizable scale x -> (Z.abs zp <= 2 ^ 22)%Z ->
  (A <> NEON -> Rabs (scaled (val scale) (val x)) <> pred_half) ->
  lane A (code_max dout) (fdiv f_one scale) (wrap32 zp) x = quant_code dout (val scale) zp (val x).
Proof.
  intros Hd HA Hs Hx Hz Hp. pose proof (code_max_range dout Hd). rewrite wrap32_id by lia. unfold quant_code.
  destruct A; cbn [lane]; try (apply lane_x86_ok; auto; apply Hp; discriminate).
  rewrite (HA eq_refl). apply lane_neon_ok; auto.
Qed.

(** zero is always quantizable *)
Lemma scaled_0 s : scaled s 0 = 0.
Proof. unfold scaled. rewrite Rmult_0_l. apply RN32_0. Qed.
Lemma quantizable_zero scale : quantizable scale f_zero.
Proof.
  destruct f_zero_ok as [F E]. split; auto. rewrite E, scaled_0, Rabs_R0. apply bpow_gt_0.
Qed.

(** ** Stochastic rounding *)
Lemma frac_fmt y : generic_format radix2 (FLT_exp (-149) 24) y -> generic_format radix2 (FLT_exp (-149) 24) (y - IZR (Ztrunc y)).
Proof.
  intros F. destruct (Req_dec y 0) as [->|Hy]; [rewrite Ztrunc_IZR, Rminus_diag_eq by reflexivity; apply generic_format_0|].
  destruct (Rlt_or_le (Rabs y) (bpow radix2 23)) as [Hs|Hb].
  2:{ rewrite <- (big_int y) by auto. rewrite Rminus_diag_eq by reflexivity. apply generic_format_0. }
  (* y = m * 2^e with e = cexp y <= -1; trunc y = k * 2^-e * 2^e *)
  set (e := cexp radix2 (FLT_exp (-149) 24) y).
  assert (He : (e <= -1)%Z).
  { unfold e, cexp, FLT_exp. assert (mag radix2 y <= 23)%Z by (apply mag_le_bpow; auto). lia. }
  assert (Ey : y = F2R (Float radix2 (Ztrunc (scaled_mantissa radix2 (FLT_exp (-149) 24) y)) e)) by exact F.
  set (m := Ztrunc (scaled_mantissa radix2 (FLT_exp (-149) 24) y)) in *.
  apply generic_format_FLT. 
  exists (Float radix2 (m - Ztrunc y * 2 ^ (- e)) e).
  - unfold F2R in *. cbn [Fnum Fexp] in *. rewrite minus_IZR, mult_IZR, Rmult_minus_distr_r, <- Ey. f_equal.
    rewrite Rmult_assoc, (IZR_Zpower radix2) by lia. rewrite <- bpow_plus. replace (- e + e)%Z with 0%Z by lia. simpl. lra.
  - cbn [Fnum]. apply lt_IZR. rewrite abs_IZR.
    assert (Hm : Rabs (IZR m) < IZR (2 ^ 24)).
    { rewrite <- abs_IZR. apply IZR_lt. 
      assert (Hl : Rabs (scaled_mantissa radix2 (FLT_exp (-149) 24) y) < bpow radix2 (24)).
      { eapply Rlt_le_trans; [apply scaled_mantissa_lt_bpow|]. apply bpow_le. unfold cexp, FLT_exp. lia. }
      apply lt_IZR. rewrite abs_IZR. unfold m. rewrite <- scaled_mantissa_generic by auto. 
      change (IZR (2 ^ 24)) with 16777216. replace 16777216 with (bpow radix2 24) by (simpl; lra). exact Hl. }
    eapply Rle_lt_trans; [|exact Hm].
    assert (Hd : Rabs (y - IZR (Ztrunc y)) <= Rabs y).
    { destruct (Rle_or_lt 0 y) as [H0|H0].
      - rewrite (Ztrunc_floor y) by auto. pose proof (Zfloor_lb y). assert (0 <= IZR (Zfloor y)) by (apply IZR_le, Zfloor_lub; auto).
        rewrite !Rabs_pos_eq by lra. lra.
      - rewrite (Ztrunc_ceil y) by lra. pose proof (Zceil_ub y).
        assert (IZR (Zceil y) <= 0) by (apply IZR_le, Zceil_glb; simpl; lra).
        rewrite (Rabs_left y) by auto. rewrite Rabs_left1 by lra. lra. }
    assert (Hp : 0 < bpow radix2 e) by apply bpow_gt_0.
    apply Rmult_le_reg_r with (bpow radix2 e); auto.
    rewrite <- (Rabs_pos_eq (bpow radix2 e)) by lra. rewrite <- !Rabs_mult.
    replace (IZR m * bpow radix2 e) with y by exact Ey.
    replace (IZR (m - Ztrunc y * 2 ^ (- e)) * bpow radix2 e) with (y - IZR (Ztrunc y)); auto.
    rewrite minus_IZR, mult_IZR, Rmult_minus_distr_r. 
    replace (IZR m * bpow radix2 e) with y by exact Ey. f_equal.
    rewrite Rmult_assoc, (IZR_Zpower radix2) by lia. rewrite <- bpow_plus. replace (- e + e)%Z with 0%Z by lia. simpl. lra.
  - cbn [Fexp]. unfold e, cexp, FLT_exp. lia.
Qed.

Lemma fabs_ok x : finite x -> finite (fabs x) /\ val (fabs x) = Rabs (val x).
Proof.
  intros F. unfold fabs, finite, val, b32_abs. split; [rewrite is_finite_Babs; auto|apply B2R_Babs].
Qed.

Lemma trunc_bound y : Rabs y < bpow radix2 30 -> (Z.abs (Ztrunc y) <= 2 ^ 30)%Z.
Proof.
  intros H. rewrite <- Ztrunc_abs. rewrite <- (Ztrunc_IZR (2 ^ 30)). apply Ztrunc_le. rewrite bpow30 in H. 
  change (IZR (2 ^ 30)) with 1073741824. lra.
Qed.

Section Stoch.
Variables (scale x thr : f32) (zp : Z).
Hypothesis Hs : good_scale scale.
Hypothesis Hx : quantizable scale x.
Hypothesis Ht : threshold thr.
Let y := scaled (val scale) (val x).
Let inv := fdiv f_one scale.

Lemma q_stochastic_ok mx : (0 <= mx)%Z -> (Z.abs zp <= 2 ^ 62)%Z ->
  q_stochastic mx thr inv zp x = Ok (clamp 0 mx (stoch_round (val thr) y + zp)).
Proof.
  intros Hm Hz. destruct (prod_ok scale x Hs Hx) as [F E]. pose proof (proj2 Hx) as Hb.
  fold inv in F, E. fold y in E, Hb. destruct Ht as [Ft [Ht0 Ht1]].
  unfold q_stochastic. set (p := fmul x inv) in *. clearbody p.
  assert (Fy : generic_format radix2 (FLT_exp (-149) 24) y) by (unfold y; apply y_fmt).
  clearbody y inv.
  destruct (ftrunc_ok p F) as [Ftr Etr]. rewrite E in Etr.
  assert (Efr : RN32 (y - IZR (Ztrunc y)) = y - IZR (Ztrunc y)) by (apply RN32_fmt, frac_fmt; auto).
  assert (Hfr : Rabs (y - IZR (Ztrunc y)) < 1).
  { destruct (Rle_or_lt 0 y) as [H0|H0].
    - rewrite (Ztrunc_floor y) by auto. pose proof (Zfloor_lb y). pose proof (Zfloor_ub y). rewrite Rabs_pos_eq by lra. lra.
    - rewrite (Ztrunc_ceil y) by lra. pose proof (Zceil_ub y). pose proof (Zceil_lb y). rewrite Rabs_left1 by lra. lra. }
  assert (H1m : 1 < max32) by (unfold max32; change 1 with (bpow radix2 0); apply bpow_lt; lia).
  destruct (fsub_ok p (ftrunc p) F Ftr) as [Fs Es]; rewrite E, Etr in *; rewrite Efr in *; [lra|].
  destruct (fabs_ok _ Fs) as [Fd Ed]. rewrite Es in Ed.
  rewrite (flt_ok thr) by auto. rewrite Ed.
  destruct f_zero_ok as [F0 E0], f_one_ok as [F1 E1], f_neg_one_ok as [Fn En].
  rewrite (flt_ok p) by auto. rewrite E, E0.
  set (b := Rlt_bool (val thr) (Rabs (y - IZR (Ztrunc y)))).
  set (s := Rlt_bool y 0).
  set (adj := if s then fmul f_neg_one (if b then f_one else f_zero) else if b then f_one else f_zero).
  assert (Hadj : finite adj /\ val adj = IZR (if b then (if s then -1 else 1) else 0)).
  { unfold adj. destruct s, b.
    - destruct (fmul_ok f_neg_one f_one Fn F1) as [A B]; rewrite En, E1 in *; replace (-1 * 1) with (IZR (-1)) in * by lra;
        rewrite RN32_fmt in * by (apply fmt32_int; lia); auto. rewrite Rabs_left by lra. lra.
    - destruct (fmul_ok f_neg_one f_zero Fn F0) as [A B]; rewrite En, E0 in *; replace (-1 * 0) with 0 in * by lra;
        rewrite RN32_0 in *; auto. rewrite Rabs_R0. lra.
    - auto.
    - auto. }
  destruct Hadj as [Fadj Eadj].
  assert (Hbig : bpow radix2 23 <= Rabs y -> b = false).
  { intros Hbig. unfold b. rewrite <- (big_int y) by auto. rewrite Rminus_diag_eq, Rabs_R0 by reflexivity. apply Rlt_bool_false. auto. }
  set (a := (if b then (if s then -1 else 1) else 0)%Z) in *.
  assert (Hsum : RN32 (IZR (Ztrunc y) + IZR a) = IZR (Ztrunc y + a)).
  { rewrite <- plus_IZR. destruct (Rle_or_lt (bpow radix2 23) (Rabs y)) as [Hge|Hlt].
    - unfold a. rewrite (Hbig Hge). rewrite Z.add_0_r. rewrite <- (big_int y) by auto. apply RN32_fmt; auto.
    - apply RN32_fmt, fmt32_int. assert (Z.abs (Ztrunc y) <= 2 ^ 23)%Z.
      { rewrite <- Ztrunc_abs. rewrite <- (Ztrunc_IZR (2 ^ 23)). apply Ztrunc_le. change (IZR (2 ^ 23)) with 8388608.
        replace 8388608 with (bpow radix2 23) by (simpl; lra). lra. }
      unfold a. destruct b, s; lia. }
  pose proof (trunc_bound y Hb) as Htb.
  assert (Hab : (Z.abs a <= 1)%Z) by (unfold a; destruct b, s; lia).
  destruct (fadd_ok (ftrunc p) adj Ftr Fadj) as [Fsum Esum]; rewrite Etr, Eadj, Hsum in *.
  { rewrite <- abs_IZR. unfold max32. rewrite <- (IZR_Zpower radix2 128) by lia. apply IZR_lt. 
    eapply Z.le_lt_trans with (2 ^ 31)%Z; [lia|reflexivity]. }
  unfold f32_to_i64. rewrite f_to_Z_finite, Esum, Ztrunc_IZR by auto.
  unfold i64. rewrite in_i64_ok by lia. cbn [bind]. rewrite in_i64_ok by lia. cbn [bind].
  rewrite clampZ_clamp by auto. do 2 f_equal. f_equal.
  (* the integer *)
  unfold stoch_round. fold s. unfold a, b.
  destruct (Rlt_bool_spec y 0) as [H0|H0]; subst s.
  - rewrite (Ztrunc_ceil y) in * by lra. rewrite (Rabs_left y) by auto.
    assert (Ec : Zfloor (- y) = (- Zceil y)%Z) by (unfold Zceil; lia).
    rewrite Ec. rewrite opp_IZR. replace (Rabs (y - IZR (Zceil y))) with (- y - - IZR (Zceil y)).
    2:{ pose proof (Zceil_ub y). rewrite Rabs_left1 by lra. lra. }
    destruct (Rlt_bool (val thr) (- y - - IZR (Zceil y))); ring.
  - rewrite (Ztrunc_floor y) in * by lra. rewrite (Rabs_pos_eq y) by auto.
    replace (Rabs (y - IZR (Zfloor y))) with (y - IZR (Zfloor y)).
    2:{ pose proof (Zfloor_lb y). rewrite Rabs_pos_eq by lra. lra. }
    destruct (Rlt_bool (val thr) (y - IZR (Zfloor y))); ring.
Qed.
End Stoch.

Lemma q_scalar_stoch_ok din dout thr scale zp x : is_q dout -> good_scale scale -> quantizable scale x -> threshold thr -> (Z.abs zp <= 2 ^ 62)%Z ->
  q_scalar din dout RM_STOCHASTIC thr (fdiv f_one scale) zp x = Ok (stoch_code dout (val scale) zp (val thr) (val x)).
Proof.
  intros Hd Hs Hx Ht Hz. pose proof (code_max_range dout Hd). unfold q_scalar, stoch_code.
  replace (specialised din dout RM_STOCHASTIC) with false by (destruct din, dout; reflexivity).
  cbn [quant_step_scalar]. apply q_stochastic_ok; auto; lia.
Qed.
